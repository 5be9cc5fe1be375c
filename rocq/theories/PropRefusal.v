(** C60: exactly which configurations make a sequential run fail with an exception.
    Vocabulary: RefusalSpec.v, VerdictSpec.v (first_refuting, never_fires), SeqSpec.v.  Model: SeqFlow.v. *)
From Coq Require Import String List Bool NArith QArith Lia.
From Verif Require Import Criterion Config SeqFlow SeqSpec SeqDemo VerdictSpec VerdictProofs RefusalSpec RefusalProofs.
Import ListNotations.
Local Open Scope list_scope.

(** The exceptions of the constructors, in terms of the configuration (also spells out the hypotheses
    'ctor_throws … = …' of C04, C09, C14, C15, C17 and the conclusion of C53). *)
Theorem C60_constructor {Stim Gen} (e : env Stim Gen) c k :
  ctor_throws e c k = true <->
  match k with
  | KSim => simulationScheme (app c) = Lookahead \/ unreadable_profile e c (simulationScheme (app c))
  | KCon => constructionScheme (app c) = Lookahead \/ unreadable_profile e c (constructionScheme (app c))
  | KAlt => unreadable_profile e c (alternatingScheme (app c))
  | KZX => False
  end.
Proof. exact (ctor_throws_iff e c k). Qed.
Print Assumptions C60_constructor.

Theorem C60_no_exceptions {Stim Gen} (e : env Stim Gen) c :
  no_exceptions e c <->
  (runSimulationChecker (exec c) = true -> ~ refuses e c KSim) /\
  (runAlternatingChecker (exec c) = true -> ~ refuses e c KAlt) /\
  (runConstructionChecker (exec c) = true -> ~ refuses e c KCon) /\
  (runZXChecker (exec c) = true -> e_zx_perm_ok e = true).
Proof. exact (no_exceptions_iff e c). Qed.
Print Assumptions C60_no_exceptions.

(** A sequential run that nothing interrupts fails exactly if it meets a refusing checker; with a timeout
    configured the process is then terminated (the detached waiting thread is destroyed while joinable),
    otherwise the caller receives the exception. *)
Theorem C60_sequential_run {Stim Gen} fuel pf (e : env Stim Gen) m l g' :
  choose_flow e (m_cfg m) = FSequential -> never_fires e (m_cfg m) ->
  r_performed (m_res m) = 0%N -> draws e (m_gen m) l g' -> N.of_nat (length l) = maxSims (sim (m_cfg m)) ->
  (length l < fuel)%nat ->
  (meets_refusal e (m_cfg m) l ->
     run fuel pf e m = if hasTimeout (m_cfg m) then Terminated else Thrown) /\
  (~ meets_refusal e (m_cfg m) l ->
     run fuel pf e m <> Thrown /\ (e_zx_perm_ok e = true -> run fuel pf e m <> Terminated)).
Proof. exact (refusal_exact fuel pf e m l g'). Qed.
Print Assumptions C60_sequential_run.

(** A refusing simulation checker makes every sequential run fail, interrupted or not. *)
Theorem C60_simulation_refused {Stim Gen} fuel pf (e : env Stim Gen) m :
  choose_flow e (m_cfg m) = FSequential ->
  runSimulationChecker (exec (m_cfg m)) = true -> refuses e (m_cfg m) KSim ->
  run fuel pf e m = if hasTimeout (m_cfg m) then Terminated else Thrown.
Proof. exact (run_sim_refused fuel pf e m). Qed.
Print Assumptions C60_simulation_refused.

(** The alternating checker can hide the refusal of the construction checker, and a distinguishing
    simulation that of both: with the lookahead scheme for the construction and ... *)
Definition refusing_cfg (con si alt : bool) : config :=
  let c := demo_cfg con si alt false 3 0 false in
  mkConfig (exec c) (opts c) (mkApplication Lookahead Proportional Proportional "") (func c) (sim c) (par c).
(** ... no other checker, the run throws; *)
Example C60_example_thrown :
  let e := demo_env (fun _ => false) MEquivalent MEquivalent ZFail true false None in
  let c := refusing_cfg true true false in
  choose_flow e c = FSequential /\ never_fires e c /\ meets_refusal e c [0%N; 1%N; 2%N] /\
  run 20 no_par e (fresh c 0%N 0) = Thrown.
Proof.
  cbn zeta. split; [reflexivity|]. split; [intros t; reflexivity|]. split; [|vm_compute; reflexivity].
  right. split; [intros _ n x [l1 l2 _ _ H _]; discriminate|]. right. repeat split. left. now left.
Qed.
(** ... the alternating checker or a distinguishing simulation, it does not. *)
Example C60_example_hidden :
  let e := demo_env (fun _ => false) MEquivalent MEquivalent ZFail true false None in
  let e' := demo_env (N.eqb 1) MEquivalent MEquivalent ZFail true false None in
  refuses e (refusing_cfg true true true) KCon /\
  ~ meets_refusal e (refusing_cfg true true true) [0%N; 1%N; 2%N] /\
  (exists m', run 20 no_par e (fresh (refusing_cfg true true true) 0%N 0) = Returned m' /\ r_eq (m_res m') = Equivalent) /\
  ~ meets_refusal e' (refusing_cfg true true false) [0%N; 1%N; 2%N] /\
  (exists m', run 20 no_par e' (fresh (refusing_cfg true true false) 0%N 0) = Returned m' /\ r_eq (m_res m') = NotEquivalent).
Proof.
  cbn zeta. split; [left; now left|]. split; [|split; [eexists; split; vm_compute; reflexivity|split; [|eexists; split; vm_compute; reflexivity]]].
  - intros [(_ & [[H|(H & _)]|(H & _)])|(_ & [(_ & [(H & _)|(_ & H)])|(H & _)])]; discriminate.
  - intros [(_ & [[H|(H & _)]|(H & _)])|(H & _)]; try discriminate.
    apply (H eq_refl 2%N 1%N). apply (first_at _ _ _ _ [0%N] [2%N]); try reflexivity. repeat constructor. discriminate.
Qed.
