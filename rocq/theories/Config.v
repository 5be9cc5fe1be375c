(** Model of include/Configuration.hpp and src/Configuration.cpp. No proofs in this file.

    Simplifications: [double] fields are rationals [Q]; [std::size_t] fields are [N]
    (their range 0..2^64-1 matters only where stated); the gate cost function is opaque and
    is modelled in Schemes.v. *)
From Coq Require Import String List Bool NArith QArith.
From Verif Require Import Criterion.
Import ListNotations.
Open Scope string_scope.

(** include/Configuration.hpp:25-36 *)
Record execution := mkExecution {
  numericalTolerance : Q;
  parallel : bool;
  nthreads : N;
  timeout : Q;
  runConstructionChecker : bool;
  runSimulationChecker : bool;
  runAlternatingChecker : bool;
  runZXChecker : bool }.

(** include/Configuration.hpp:39-47 *)
Record optimizations := mkOptimizations {
  fuseSingleQubitGates : bool;
  reconstructSWAPs : bool;
  removeDiagonalGatesBeforeMeasure : bool;
  transformDynamicCircuit : bool;
  reorderOperations : bool;
  backpropagateOutputPermutation : bool;
  elidePermutations : bool }.

(** include/Configuration.hpp:50-61 (costFunction omitted: it never appears in the JSON and
    the predicates; see Schemes.v) *)
Record application := mkApplication {
  constructionScheme : scheme;
  simulationScheme : scheme;
  alternatingScheme : scheme;
  profile : string }.

(** include/Configuration.hpp:63-66 *)
Record functionality := mkFunctionality {
  traceThreshold : Q;
  checkPartialEquivalence : bool }.

(** include/Configuration.hpp:69-75 *)
Record simulation := mkSimulation {
  fidelityThreshold : Q;
  maxSims : N;
  stateTyp : stateType;
  seed : N;
  storeCEXinput : bool;
  storeCEXoutput : bool }.

(** include/Configuration.hpp:93-96 *)
Record parameterized := mkParameterized {
  parameterizedTol : Q;
  nAdditionalInstantiations : N }.

(** include/Configuration.hpp:98-103 *)
Record config := mkConfig {
  exec : execution;
  opts : optimizations;
  app : application;
  func : functionality;
  sim : simulation;
  par : parameterized }.

(** include/Configuration.hpp:79-90; [hw] is std::thread::hardware_concurrency() *)
Definition computeMaxSims (hw : N) : N :=
  if N.ltb hw 2 then 16 else N.max 16 (hw - 2).

(** default argument of set_max_sims, src/python/bindings.cpp:342:
    std::max(16U, std::thread::hardware_concurrency() - 2U) in 32-bit unsigned arithmetic *)
Definition bindings_default_max_sims (hw : N) : N :=
  N.max 16 ((hw + 2 ^ 32 - 2) mod 2 ^ 32).

(** include/Configuration.hpp:29 *)
Definition default_nthreads (hw : N) : N := N.max 2 hw.

(** default-constructed configuration, include/Configuration.hpp:25-103;
    dd::RealNumber::eps is left as a parameter *)
Definition default_config (hw : N) (eps : Q) : config :=
  mkConfig
    (mkExecution eps true (default_nthreads hw) 0 false true true true)
    (mkOptimizations true true false false true false true)
    (mkApplication Proportional Proportional Proportional "")
    (mkFunctionality (1 # 100000000) false)
    (mkSimulation (1 # 100000000) (computeMaxSims hw) ComputationalBasis 0 false false)
    (mkParameterized (1 # 1000000000000) 0).

(** src/Configuration.cpp:15-19 *)
Definition anythingToExecute (c : config) : bool :=
  (runSimulationChecker (exec c) && N.ltb 0 (maxSims (sim c))) ||
  runAlternatingChecker (exec c) || runConstructionChecker (exec c) || runZXChecker (exec c).

(** src/Configuration.cpp:21-41 *)
Definition onlySingleTask (c : config) : bool :=
  if runSimulationChecker (exec c) && N.eqb (maxSims (sim c)) 1 &&
     negb (runAlternatingChecker (exec c)) && negb (runConstructionChecker (exec c)) &&
     negb (runZXChecker (exec c))
  then true
  else
  if negb (runSimulationChecker (exec c)) &&
     ((runAlternatingChecker (exec c) && negb (runConstructionChecker (exec c)) &&
       negb (runZXChecker (exec c))) ||
      (negb (runAlternatingChecker (exec c)) && runConstructionChecker (exec c) &&
       negb (runZXChecker (exec c))) ||
      (negb (runAlternatingChecker (exec c)) && negb (runConstructionChecker (exec c)) &&
       runZXChecker (exec c)))
  then true
  else false.

(** src/Configuration.cpp:43-46 *)
Definition onlyZXCheckerConfigured (c : config) : bool :=
  negb (runConstructionChecker (exec c)) && negb (runSimulationChecker (exec c)) &&
  negb (runAlternatingChecker (exec c)) && runZXChecker (exec c).

(** src/Configuration.cpp:48-51 *)
Definition onlySimulationCheckerConfigured (c : config) : bool :=
  negb (runConstructionChecker (exec c)) && runSimulationChecker (exec c) &&
  negb (runAlternatingChecker (exec c)) && negb (runZXChecker (exec c)).

(** [x > 0.] on doubles *)
Definition Qpos (q : Q) : bool := negb (Qle_bool q 0).

(** JSON values occurring in the configuration report. An object is the list of its
    key/value pairs in insertion order (nlohmann::json keeps them sorted by key; only
    look-up by key is used by the properties). *)
Inductive json : Type :=
| JBool (b : bool)
| JNum (n : N)
| JReal (q : Q)
| JStr (s : string)
| JNull
| JObj (fields : list (string * json)).

(** look-up of a key in an object *)
Fixpoint assoc (k : string) (l : list (string * json)) : option json :=
  match l with
  | [] => None
  | (k', v) :: r => if k =? k' then Some v else assoc k r
  end.

Definition jget (k : string) (j : json) : option json :=
  match j with JObj l => assoc k l | _ => None end.

(** [auto& x = config["k"]] without later assignments leaves a null value *)
Definition jobj (l : list (string * json)) : json :=
  match l with [] => JNull | _ => JObj l end.

(** src/Configuration.cpp:53-123 *)
Definition config_json (c : config) : json :=
  let e := exec c in let o := opts c in let a := app c in
  let s := sim c in let f := func c in let p := par c in
  let exe := JObj
    ([("tolerance", JReal (numericalTolerance e));
      ("parallel", JBool (parallel e));
      ("nthreads", JNum (if parallel e then nthreads e else 1));
      ("run_construction_checker", JBool (runConstructionChecker e));
      ("run_simulation_checker", JBool (runSimulationChecker e));
      ("run_alternating_checker", JBool (runAlternatingChecker e));
      ("run_zx_checker", JBool (runZXChecker e))] ++
     (if Qpos (timeout e) then [("timeout", JReal (timeout e))] else [])) in
  let opt := JObj
    [("fuse_consecutive_single_qubit_gates", JBool (fuseSingleQubitGates o));
     ("reconstruct_swaps", JBool (reconstructSWAPs o));
     ("remove_diagonal_gates_before_measure", JBool (removeDiagonalGatesBeforeMeasure o));
     ("transform_dynamic_circuit", JBool (transformDynamicCircuit o));
     ("reorder_operations", JBool (reorderOperations o));
     ("backpropagate_output_permutation", JBool (backpropagateOutputPermutation o));
     ("elide_permutations", JBool (elidePermutations o))] in
  let ap := jobj
    ((if runConstructionChecker e
      then [("construction", JStr (scheme_toString (constructionScheme a)))] else []) ++
     (if runSimulationChecker e
      then [("simulation", JStr (scheme_toString (simulationScheme a)))] else []) ++
     (if runAlternatingChecker e
      then [("alternating", JStr (scheme_toString (alternatingScheme a)))] else []) ++
     (if scheme_eqb (constructionScheme a) GateCost || scheme_eqb (simulationScheme a) GateCost
         || scheme_eqb (alternatingScheme a) GateCost
      then [("profile", JStr (if profile a =? "" then "cost_function" else profile a))]
      else [])) in
  let pa := JObj
    [("tolerance", JReal (parameterizedTol p));
     ("additional_instantiations", JNum (nAdditionalInstantiations p))] in
  JObj
    ([("execution", exe); ("optimizations", opt); ("application", ap);
      ("parameterized", pa)] ++
     (if runConstructionChecker e || runAlternatingChecker e then
        [("functionality", JObj
           [("trace_threshold", JReal (traceThreshold f));
            ("check_partial_equivalence", JBool (checkPartialEquivalence f))])] else []) ++
     (if runSimulationChecker e then
        [("simulation", JObj
           [("fidelity_threshold", JReal (fidelityThreshold s));
            ("max_sims", JNum (maxSims s));
            ("state_type", JStr (stateType_toString (stateTyp s)));
            ("seed", JNum (seed s));
            ("store_counterexample_input", JBool (storeCEXinput s));
            ("store_counterexample_output", JBool (storeCEXoutput s))])] else [])).

(** ** Setters of the manager, include/EquivalenceCheckingManager.hpp:119-249 *)

Definition upd_exec (f : execution -> execution) (c : config) : config :=
  mkConfig (f (exec c)) (opts c) (app c) (func c) (sim c) (par c).
Definition upd_opts (f : optimizations -> optimizations) (c : config) : config :=
  mkConfig (exec c) (f (opts c)) (app c) (func c) (sim c) (par c).
Definition upd_app (f : application -> application) (c : config) : config :=
  mkConfig (exec c) (opts c) (f (app c)) (func c) (sim c) (par c).
Definition upd_func (f : functionality -> functionality) (c : config) : config :=
  mkConfig (exec c) (opts c) (app c) (f (func c)) (sim c) (par c).
Definition upd_sim (f : simulation -> simulation) (c : config) : config :=
  mkConfig (exec c) (opts c) (app c) (func c) (f (sim c)) (par c).
Definition upd_par (f : parameterized -> parameterized) (c : config) : config :=
  mkConfig (exec c) (opts c) (app c) (func c) (sim c) (f (par c)).

(** EquivalenceCheckingManager.hpp:132-141 *)
Definition set_checkers (constr simu alt zx : bool) (e : execution) : execution :=
  mkExecution (numericalTolerance e) (parallel e) (nthreads e) (timeout e) constr simu alt zx.
Definition setConstructionChecker (b : bool) : config -> config := upd_exec (fun e =>
  set_checkers b (runSimulationChecker e) (runAlternatingChecker e) (runZXChecker e) e).
Definition setSimulationChecker (b : bool) : config -> config := upd_exec (fun e =>
  set_checkers (runConstructionChecker e) b (runAlternatingChecker e) (runZXChecker e) e).
Definition setAlternatingChecker (b : bool) : config -> config := upd_exec (fun e =>
  set_checkers (runConstructionChecker e) (runSimulationChecker e) b (runZXChecker e) e).
Definition setZXChecker (b : bool) : config -> config := upd_exec (fun e =>
  set_checkers (runConstructionChecker e) (runSimulationChecker e) (runAlternatingChecker e) b e).
(** EquivalenceCheckingManager.hpp:143-148 *)
Definition disableAllCheckers : config -> config :=
  upd_exec (set_checkers false false false false).
(** EquivalenceCheckingManager.hpp:231-236 *)
Definition setMaxSims (n : N) (c : config) : config :=
  let c' := if N.eqb n 0 then setSimulationChecker false c else c in
  upd_sim (fun s => mkSimulation (fidelityThreshold s) n (stateTyp s) (seed s)
                                 (storeCEXinput s) (storeCEXoutput s)) c'.
(** EquivalenceCheckingManager.hpp:237-239 *)
Definition setStateType (t : stateType) : config -> config :=
  upd_sim (fun s => mkSimulation (fidelityThreshold s) (maxSims s) t (seed s)
                                 (storeCEXinput s) (storeCEXoutput s)).
(** EquivalenceCheckingManager.hpp:123-131 *)
Definition setParallel (b : bool) : config -> config := upd_exec (fun e =>
  mkExecution (numericalTolerance e) b (nthreads e) (timeout e) (runConstructionChecker e)
    (runSimulationChecker e) (runAlternatingChecker e) (runZXChecker e)).
Definition setNThreads (n : N) : config -> config := upd_exec (fun e =>
  mkExecution (numericalTolerance e) (parallel e) n (timeout e) (runConstructionChecker e)
    (runSimulationChecker e) (runAlternatingChecker e) (runZXChecker e)).
Definition setTimeout (t : Q) : config -> config := upd_exec (fun e =>
  mkExecution (numericalTolerance e) (parallel e) (nthreads e) t (runConstructionChecker e)
    (runSimulationChecker e) (runAlternatingChecker e) (runZXChecker e)).
