(** Independent specification for the textual forms of the enumerations and for the meaning
    of the configuration predicates and report. No proofs. *)
From Coq Require Import String Ascii List Bool NArith QArith.
From Verif Require Import Criterion Config.
Import ListNotations.
Open Scope string_scope.

(** documented spellings of the criteria, one table *)
Inductive criterion_spelling : string -> criterion -> Prop :=
| cs_ne : criterion_spelling "not_equivalent" NotEquivalent
| cs_e : criterion_spelling "equivalent" Equivalent
| cs_ni : criterion_spelling "no_information" NoInformation
| cs_pe : criterion_spelling "probably_equivalent" ProbablyEquivalent
| cs_gp : criterion_spelling "equivalent_up_to_global_phase" EquivalentUpToGlobalPhase
| cs_p : criterion_spelling "equivalent_up_to_phase" EquivalentUpToPhase
| cs_pne : criterion_spelling "probably_not_equivalent" ProbablyNotEquivalent.

(** spellings of the application schemes: names, numbers, aliases *)
Inductive scheme_spelling : string -> scheme -> Prop :=
| ss_s : scheme_spelling "sequential" Sequential
| ss_s0 : scheme_spelling "0" Sequential
| ss_sr : scheme_spelling "reference" Sequential
| ss_o : scheme_spelling "one_to_one" OneToOne
| ss_o1 : scheme_spelling "1" OneToOne
| ss_on : scheme_spelling "naive" OneToOne
| ss_l : scheme_spelling "lookahead" Lookahead
| ss_l2 : scheme_spelling "2" Lookahead
| ss_g : scheme_spelling "gate_cost" GateCost
| ss_g3 : scheme_spelling "3" GateCost
| ss_gc : scheme_spelling "compilation_flow" GateCost
| ss_p : scheme_spelling "proportional" Proportional
| ss_p4 : scheme_spelling "4" Proportional.

Inductive stateType_spelling : string -> stateType -> Prop :=
| st_c : stateType_spelling "computational_basis" ComputationalBasis
| st_c0 : stateType_spelling "0" ComputationalBasis
| st_cc : stateType_spelling "classical" ComputationalBasis
| st_r : stateType_spelling "random_1Q_basis" Random1QBasis
| st_r1 : stateType_spelling "1" Random1QBasis
| st_rl : stateType_spelling "local_quantum" Random1QBasis
| st_s : stateType_spelling "stabilizer" Stabilizer
| st_s2 : stateType_spelling "2" Stabilizer
| st_sg : stateType_spelling "global_quantum" Stabilizer.

(** strings of white space only / strings at which a token ends *)
Fixpoint all_space (s : string) : Prop :=
  match s with EmptyString => True | String c r => is_space c = true /\ all_space r end.
Definition ends_token (s : string) : Prop :=
  match s with EmptyString => True | String c _ => is_space c = true end.

(** number of verification tasks a configuration asks for *)
Definition b2n (b : bool) : N := if b then 1%N else 0%N.
Definition num_tasks (c : config) : N :=
  (b2n (runAlternatingChecker (exec c)) + b2n (runConstructionChecker (exec c)) +
   b2n (runZXChecker (exec c)) +
   (if runSimulationChecker (exec c) then maxSims (sim c) else 0))%N.

(** the settings a configuration report must determine *)
Definition shown_profile (a : application) : option string :=
  if scheme_eqb (constructionScheme a) GateCost || scheme_eqb (simulationScheme a) GateCost
     || scheme_eqb (alternatingScheme a) GateCost
  then Some (if profile a =? "" then "cost_function" else profile a) else None.

Record same_report (c d : config) : Prop := {
  sr_tol : numericalTolerance (exec c) = numericalTolerance (exec d);
  sr_parallel : parallel (exec c) = parallel (exec d);
  sr_nthreads : parallel (exec c) = true -> nthreads (exec c) = nthreads (exec d);
  sr_timeout : Qpos (timeout (exec c)) = Qpos (timeout (exec d)) /\
               (Qpos (timeout (exec c)) = true -> timeout (exec c) = timeout (exec d));
  sr_constr : runConstructionChecker (exec c) = runConstructionChecker (exec d);
  sr_sim : runSimulationChecker (exec c) = runSimulationChecker (exec d);
  sr_alt : runAlternatingChecker (exec c) = runAlternatingChecker (exec d);
  sr_zx : runZXChecker (exec c) = runZXChecker (exec d);
  sr_opts : opts c = opts d;
  sr_par : par c = par d;
  sr_cscheme : runConstructionChecker (exec c) = true ->
               constructionScheme (app c) = constructionScheme (app d);
  sr_sscheme : runSimulationChecker (exec c) = true ->
               simulationScheme (app c) = simulationScheme (app d);
  sr_ascheme : runAlternatingChecker (exec c) = true ->
               alternatingScheme (app c) = alternatingScheme (app d);
  sr_profile : shown_profile (app c) = shown_profile (app d);
  sr_func : runConstructionChecker (exec c) = true \/ runAlternatingChecker (exec c) = true ->
            func c = func d;
  sr_simset : runSimulationChecker (exec c) = true -> sim c = sim d }.
