(** Properties of run() in the sequential, symbolic and trivial flows:
    C01, C03, C04, C05 (sequential part), C10, C11, C12, C13, C14, C18, C51.
    Vocabulary: SeqSpec.v.  Model: SeqFlow.v. *)
From Coq Require Import String List Bool NArith QArith.
From Verif Require Import Criterion Config SeqFlow SeqSpec SeqDemo SeqProofs SeqProofs2 SeqProofs3.
Import ListNotations.
Local Open Scope list_scope.

(** ** C01: every definitive verdict is the verdict of an uninterrupted enabled checker *)
Theorem C01_verdict_source {Stim Gen} fuel pf (e : env Stim Gen) m m' :
  choose_flow e (m_cfg m) = FSequential -> run fuel pf e m = Returned m' ->
  let q := r_eq (m_res m') in
  (q = Equivalent \/ q = EquivalentUpToGlobalPhase ->
     from_exact_checker e (m_cfg m) q \/ from_zx_checker e (m_cfg m) q) /\
  (q = NotEquivalent -> from_exact_checker e (m_cfg m) q \/ refuted_by_simulation e (m_cfg m) (m_gen m)) /\
  q <> EquivalentUpToPhase.
Proof. exact (c01_source fuel pf e m m'). Qed.
Print Assumptions C01_verdict_source.

(** [truth q] is read as "verdict q is true of the two circuits".  If each enabled checker is
    sound, so is run(), whenever the timeout fires ([e_fire], [e_notice] are arbitrary). *)
Theorem C01_sound {Stim Gen} (truth : criterion -> Prop) fuel pf (e : env Stim Gen) m m' :
  (runAlternatingChecker (exec (m_cfg m)) = true -> e_canHandle e = true -> truth (mcrit (e_alt e))) ->
  (runConstructionChecker (exec (m_cfg m)) = true -> truth (mcrit (e_con e))) ->
  (runZXChecker (exec (m_cfg m)) = true -> e_transformable e = true ->
     zcrit (e_ancilla e) (e_zx e) = Equivalent \/ zcrit (e_ancilla e) (e_zx e) = EquivalentUpToGlobalPhase ->
     truth (zcrit (e_ancilla e) (e_zx e))) ->
  (forall s, drawn_from e (m_gen m) s -> e_sim e s = SNotEquivalent -> truth NotEquivalent) ->
  choose_flow e (m_cfg m) = FSequential -> run fuel pf e m = Returned m' ->
  definitive (r_eq (m_res m')) -> truth (r_eq (m_res m')).
Proof. exact (c01_sound truth fuel pf e m m'). Qed.
Print Assumptions C01_sound.

(** all four checkers enabled, the third stimulus refutes *)
Example C01_example :
  let e := demo_env (N.eqb 2) MNotEquivalent MNotEquivalent ZFail true false None in
  let c := demo_cfg true true true true 10 0 true in
  choose_flow e c = FSequential /\
  exists m', run 20 no_par e (fresh c 0%N 0) = Returned m' /\ r_eq (m_res m') = NotEquivalent /\
             r_performed (m_res m') = 3%N /\ r_cexIn (m_res m') = Some 2%N.
Proof. cbn zeta. split; [reflexivity|]. eexists. split; [vm_compute; reflexivity|]. repeat split. Qed.
(** a timeout between the simulations and the alternating check leaves 'probably equivalent' *)
Example C01_example_timeout :
  let e := demo_env (fun _ => false) MEquivalent MEquivalent ZFail true false (Some 7%nat) in
  let c := demo_cfg false true true false 3 (1#2) true in
  choose_flow e c = FSequential /\
  exists m', run 20 no_par e (fresh c 0%N 0) = Returned m' /\ r_eq (m_res m') = ProbablyEquivalent.
Proof. cbn zeta. split; [reflexivity|]. eexists. split; [vm_compute; reflexivity|]. repeat split. Qed.

(** ** C03 (sequential part) *)
(** 'probably equivalent': the simulations of this run used the stimuli [l0 ++ [x]]; all of l0 ran to
    completion without distinguishing the circuits, and so did x unless the timeout cut it short *)
Theorem C03_sequential_probably_equivalent {Stim Gen} fuel pf (e : env Stim Gen) m m' :
  choose_flow e (m_cfg m) = FSequential -> run fuel pf e m = Returned m' ->
  r_eq (m_res m') = ProbablyEquivalent ->
  exists l, draws e (m_gen m) l (m_gen m') /\
    r_performed (m_res m') = (r_performed (m_res m) + N.of_nat (length l))%N /\
    exists l0 x, l = l0 ++ [x] /\ Forall (nonref e) l0 /\
      (nonref e x \/ (hasTimeout (m_cfg m) = true /\ l0 <> [])).
Proof. exact (c03_pe fuel pf e m m'). Qed.
Print Assumptions C03_sequential_probably_equivalent.

Theorem C03_sequential_probably_not_equivalent {Stim Gen} fuel pf (e : env Stim Gen) m m' :
  choose_flow e (m_cfg m) = FSequential -> run fuel pf e m = Returned m' ->
  r_eq (m_res m') = ProbablyNotEquivalent ->
  runZXChecker (exec (m_cfg m)) = true /\ e_transformable e = true /\
  e_zx e = ZFail /\ e_ancilla e = false.
Proof. exact (c03_pne fuel pf e m m'). Qed.
Print Assumptions C03_sequential_probably_not_equivalent.

Example C03_example_pne :
  let e := demo_env (fun _ => false) MEquivalent MEquivalent ZFail true false None in
  let c := demo_cfg false false false true 3 0 true in
  choose_flow e c = FSequential /\
  exists m', run 20 no_par e (fresh c 0%N 0) = Returned m' /\ r_eq (m_res m') = ProbablyNotEquivalent.
Proof. cbn zeta. split; [reflexivity|]. eexists. split; [vm_compute; reflexivity|]. repeat split. Qed.

(** the strict reading "no simulation that was run distinguishes the circuits" fails: the run on the last
    stimulus (1) was cut short by the timeout, its stale verdict is taken for a success *)
Theorem C03_sequential_all_agree_refuted :
  exists (e : env N N) c m',
    choose_flow e c = FSequential /\ run 20 no_par e (fresh c 0%N 0) = Returned m' /\
    r_eq (m_res m') = ProbablyEquivalent /\ r_performed (m_res m') = 2%N /\
    draws e 0%N [0%N; 1%N] (m_gen m') /\ e_sim e 1%N = SNotEquivalent.
Proof.
  exists (demo_env (N.eqb 1) MEquivalent MEquivalent ZFail true false (Some 3%nat)),
         (demo_cfg false true false false 5 (1#2) false).
  eexists. split; [reflexivity|]. split; [vm_compute; reflexivity|].
  repeat split. econstructor; [reflexivity|]. econstructor; [reflexivity|]. constructor.
Qed.
Print Assumptions C03_sequential_all_agree_refuted.

(** ** C04 (sequential part) *)
Theorem C04_sequential_counters {Stim Gen} fuel pf (e : env Stim Gen) c g pp m' :
  choose_flow e c = FSequential -> run fuel pf e (fresh c g pp) = Returned m' ->
  r_started (m_res m') = r_performed (m_res m') /\
  (r_performed (m_res m') <= maxSims (sim c))%N /\
  exists l, draws e g l (m_gen m') /\ r_started (m_res m') = N.of_nat (length l).
Proof. exact (c04_counts fuel pf e c g pp m'). Qed.
Print Assumptions C04_sequential_counters.

Theorem C04_sequential_only_simulations {Stim Gen} fuel pf (e : env Stim Gen) c g pp m' :
  choose_flow e c = FSequential -> onlySimulationCheckerConfigured c = true -> hasTimeout c = false ->
  run fuel pf e (fresh c g pp) = Returned m' -> r_eq (m_res m') <> NotEquivalent ->
  r_performed (m_res m') = maxSims (sim c) /\ r_eq (m_res m') = ProbablyEquivalent.
Proof. exact (c04_only_sim fuel pf e c g pp m'). Qed.
Print Assumptions C04_sequential_only_simulations.

Example C04_example :
  let e := demo_env (fun _ => false) MEquivalent MEquivalent ZFail true false None in
  let c := demo_cfg false true false false 7 0 true in
  choose_flow e c = FSequential /\ onlySimulationCheckerConfigured c = true /\
  exists m', run 20 no_par e (fresh c 0%N 0) = Returned m' /\ r_performed (m_res m') = 7%N.
Proof. cbn zeta. split; [reflexivity|]. split; [reflexivity|]. eexists. split; [vm_compute; reflexivity|]. repeat split. Qed.

(** ** C05 (sequential part) *)
Theorem C05_sequential_counterexample {Stim Gen} fuel pf (e : env Stim Gen) m m' :
  choose_flow e (m_cfg m) = FSequential -> run fuel pf e m = Returned m' ->
  r_cexIn (m_res m) = None -> r_cexOut (m_res m) = None ->
  (forall x, r_cexIn (m_res m') = Some x ->
     storeCEXinput (sim (m_cfg m)) = true /\ r_eq (m_res m') = NotEquivalent /\
     e_sim e x = SNotEquivalent /\ exists l0, draws e (m_gen m) (l0 ++ [x]) (m_gen m')) /\
  (forall x, r_cexOut (m_res m') = Some x ->
     storeCEXoutput (sim (m_cfg m)) = true /\ r_eq (m_res m') = NotEquivalent /\
     e_sim e x = SNotEquivalent /\ exists l0, draws e (m_gen m) (l0 ++ [x]) (m_gen m')) /\
  (r_eq (m_res m') = NotEquivalent -> ~ from_exact_checker e (m_cfg m) NotEquivalent ->
     exists x l0, draws e (m_gen m) (l0 ++ [x]) (m_gen m') /\ Forall (nonref e) l0 /\
       e_sim e x = SNotEquivalent /\
       r_cexIn (m_res m') = (if storeCEXinput (sim (m_cfg m)) then Some x else None) /\
       r_cexOut (m_res m') = (if storeCEXoutput (sim (m_cfg m)) then Some x else None)).
Proof. exact (c05_cex fuel pf e m m'). Qed.
Print Assumptions C05_sequential_counterexample.

(** a second run() without reset() keeps the old counterexample next to a verdict it does not belong to:
    here the simulation checker is disabled between the runs *)
Theorem C05_stale_counterexample_refuted :
  exists (e : env N N) c c' m1 m2,
    run 20 no_par e (fresh c 0%N 0) = Returned m1 /\ r_eq (m_res m1) = NotEquivalent /\
    run 20 no_par e (mkMgr c' (m_gen m1) (m_done m1) (m_checkers m1) (m_res m1)) = Returned m2 /\
    choose_flow e c' = FSequential /\
    r_eq (m_res m2) = NoInformation /\ r_cexIn (m_res m2) = Some 2%N.
Proof.
  exists (demo_env (N.eqb 2) MNotEquivalent MNotEquivalent ZFail false false None),
         (demo_cfg false true false false 10 0 true), (demo_cfg false false false true 10 0 true).
  eexists. eexists. split; [vm_compute; reflexivity|]. split; [reflexivity|]. split; [vm_compute; reflexivity|]. repeat split.
Qed.
Print Assumptions C05_stale_counterexample_refuted.

(** ** C10: joining the timeout thread *)
Theorem C10_sequential_terminated_exactly {Stim Gen} fuel pf (e : env Stim Gen) m :
  choose_flow e (m_cfg m) = FSequential -> no_exceptions e (m_cfg m) ->
  (run (S fuel) pf e m = Terminated <->
   first_simulation_interrupted e (m_cfg m) (m_res m) (m_gen m)).
Proof. exact (c10_terminated fuel pf e m). Qed.
Print Assumptions C10_sequential_terminated_exactly.

Theorem C10_sequential_no_timeout {Stim Gen} fuel pf (e : env Stim Gen) m :
  choose_flow e (m_cfg m) = FSequential -> no_exceptions e (m_cfg m) -> hasTimeout (m_cfg m) = false ->
  run fuel pf e m <> Terminated /\ run fuel pf e m <> Thrown.
Proof. exact (c10_no_timeout fuel pf e m). Qed.
Print Assumptions C10_sequential_no_timeout.

(** with a timeout configured, an exception never reaches the caller: it destroys the joinable thread *)
Theorem C10_sequential_exceptions_with_timeout {Stim Gen} fuel pf (e : env Stim Gen) m :
  choose_flow e (m_cfg m) = FSequential -> hasTimeout (m_cfg m) = true -> run fuel pf e m <> Thrown.
Proof. exact (c10_exceptions fuel pf e m). Qed.
Print Assumptions C10_sequential_exceptions_with_timeout.

Theorem C10_symbolic_terminated_exactly {Stim Gen} fuel pf (e : env Stim Gen) m :
  choose_flow e (m_cfg m) = FSymbolic -> e_zx_perm_ok e = true ->
  (run fuel pf e m = Terminated <->
   hasTimeout (m_cfg m) = true /\ e_transformable e = false /\ fired e (m_cfg m) 0 = false) /\
  run fuel pf e m <> Thrown /\ run fuel pf e m <> Diverged /\ run fuel pf e m <> AssertFailed.
Proof. exact (c10_symbolic fuel pf e m). Qed.
Print Assumptions C10_symbolic_terminated_exactly.

Theorem C10_always_joined_refuted :
  (exists (e : env N N) c, choose_flow e c = FSequential /\ no_exceptions e c /\
     run 20 no_par e (fresh c 0%N 0) = Terminated) /\
  (exists (e : env N N) c, choose_flow e c = FSymbolic /\
     run 20 no_par e (fresh c 0%N 0) = Terminated).
Proof.
  split.
  - exists (demo_env (fun _ => false) MEquivalent MEquivalent ZFail true false (Some 1%nat)),
           (demo_cfg false true true false 5 (1#2) false).
    split; [reflexivity|]. split; [|vm_compute; reflexivity]. repeat split.
  - exists (demo_sym ZEquivalent false None), (demo_cfg false true true true 5 (1#2) false).
    split; [reflexivity|vm_compute; reflexivity].
Qed.
Print Assumptions C10_always_joined_refuted.

(** ** C11 *)
Theorem C11_terminates_on_fresh {Stim Gen} fuel pf (e : env Stim Gen) c g pp :
  choose_flow e c = FSequential -> gen_supplies e g (maxSims (sim c)) -> (maxSims (sim c) < N.of_nat fuel)%N ->
  run fuel pf e (fresh c g pp) <> Diverged.
Proof. exact (c11_terminates fuel pf e c g pp). Qed.
Print Assumptions C11_terminates_on_fresh.

(** the bound on loop iterations in the model plays no role for runs that end *)
Theorem C11_fuel_irrelevant {Stim Gen} fuel k pf (e : env Stim Gen) m :
  choose_flow e (m_cfg m) = FSequential -> run fuel pf e m <> Diverged ->
  run (fuel + k) pf e m = run fuel pf e m.
Proof. exact (c11_fuel_irrelevant fuel k pf e m). Qed.
Print Assumptions C11_fuel_irrelevant.

Theorem C11_rerun_without_reset {Stim Gen} fuel pf (e : env Stim Gen) m :
  choose_flow e (m_cfg m) = FSequential -> onlySimulationCheckerConfigured (m_cfg m) = true ->
  ctor_throws e (m_cfg m) KSim = false ->
  r_performed (m_res m) = maxSims (sim (m_cfg m)) ->
  exists m', run (S fuel) pf e m = Returned m' /\
    r_eq (m_res m') = NoInformation /\ r_performed (m_res m') = r_performed (m_res m) /\
    r_started (m_res m') = r_started (m_res m) /\ m_gen m' = m_gen m.
Proof. exact (c11_rerun fuel pf e m). Qed.
Print Assumptions C11_rerun_without_reset.

Theorem C11_rerun_with_fewer_simulations_diverges {Stim Gen} fuel pf (e : env Stim Gen) m :
  choose_flow e (m_cfg m) = FSequential -> runSimulationChecker (exec (m_cfg m)) = true ->
  ctor_throws e (m_cfg m) KSim = false -> hasTimeout (m_cfg m) = false ->
  (forall s, e_sim e s <> SNotEquivalent) ->
  (maxSims (sim (m_cfg m)) < r_performed (m_res m))%N ->
  run fuel pf e m = Diverged.
Proof. exact (c11_lowered fuel pf e m). Qed.
Print Assumptions C11_rerun_with_fewer_simulations_diverges.

(** both situations are reached from a fresh manager *)
Example C11_example_rerun :
  let e := demo_env (fun _ => false) MEquivalent MEquivalent ZFail true false None in
  let c := demo_cfg false true false false 5 0 false in
  exists m1, run 20 no_par e (fresh c 0%N 0) = Returned m1 /\ r_eq (m_res m1) = ProbablyEquivalent /\
    r_performed (m_res m1) = maxSims (sim c) /\
    exists m2, run 20 no_par e m1 = Returned m2 /\ r_eq (m_res m2) = NoInformation.
Proof. cbn zeta. eexists. split; [vm_compute; reflexivity|]. repeat split. eexists. split; [vm_compute; reflexivity|]. repeat split. Qed.
Example C11_example_lowered :
  let e := demo_env (fun _ => false) MEquivalent MEquivalent ZFail true false None in
  let c := demo_cfg false true false false 5 0 false in
  let c' := demo_cfg false true false false 3 0 false in
  exists m1, run 20 no_par e (fresh c 0%N 0) = Returned m1 /\
    forall fuel, run fuel no_par e (mkMgr c' (m_gen m1) (m_done m1) (m_checkers m1) (m_res m1)) = Diverged.
Proof.
  cbn zeta. eexists. split; [vm_compute; reflexivity|]. intros fuel.
  apply C11_rerun_with_fewer_simulations_diverges; try reflexivity. intros s. discriminate.
Qed.

(** ** C12 *)
Theorem C12_reset_is_fresh {Stim Gen} fuel pf (e : env Stim Gen) m :
  run fuel pf e (reset e m) = run fuel pf e (fresh (m_cfg m) (e_clear e (m_gen m)) 0).
Proof. exact (c12_reset fuel pf e m). Qed.
Print Assumptions C12_reset_is_fresh.

(** ... and the preprocessing time of the fresh manager has no influence other than being reported *)
Theorem C12_preprocessing_time_is_passive {Stim Gen} fuel pf (e : env Stim Gen) c g pp :
  choose_flow e c <> FParallel ->
  run fuel pf e (fresh c g pp) = omap_pp pp (run fuel pf e (fresh c g 0)).
Proof. exact (c12_same_but_preproc fuel pf e c g pp). Qed.
Print Assumptions C12_preprocessing_time_is_passive.

Theorem C12_counters_accumulate_without_reset {Stim Gen} fuel pf (e : env Stim Gen) m m' :
  choose_flow e (m_cfg m) = FSequential -> run fuel pf e m = Returned m' ->
  exists l, draws e (m_gen m) l (m_gen m') /\
  r_started (m_res m') = (r_started (m_res m) + N.of_nat (length l))%N /\
  r_performed (m_res m') = (r_performed (m_res m) + N.of_nat (length l))%N.
Proof. exact (c12_accumulate fuel pf e m m'). Qed.
Print Assumptions C12_counters_accumulate_without_reset.

Example C12_example :
  let e := demo_env (N.eqb 2) MEquivalent MEquivalent ZFail true false None in
  let c := demo_cfg false true false false 5 0 true in
  exists m1 m2, run 20 no_par e (fresh c 0%N 7) = Returned m1 /\ r_performed (m_res m1) = 3%N /\
    run 20 no_par e (reset e m1) = Returned m2 /\ r_performed (m_res m2) = 3%N /\
    r_cexIn (m_res m2) = Some 2%N /\ r_preproc (m_res m1) = 7%Q /\ r_preproc (m_res m2) = 0%Q.
Proof. cbn zeta. eexists. eexists. split; [vm_compute; reflexivity|]. split; [reflexivity|]. split; [vm_compute; reflexivity|]. repeat split. Qed.

(** ** C13 *)
Theorem C13_nothing_to_execute {Stim Gen} fuel pf (e : env Stim Gen) m :
  anythingToExecute (m_cfg m) = false ->
  exists m', run fuel pf e m = Returned m' /\ r_eq (m_res m') = NoInformation /\
    m_checkers m' = m_checkers m /\ m_gen m' = m_gen m /\ r_started (m_res m') = r_started (m_res m) /\
    r_performed (m_res m') = r_performed (m_res m).
Proof. intros H. rewrite (c13_nothing fuel pf e m H). eexists. repeat split. Qed.
Print Assumptions C13_nothing_to_execute.

Theorem C13_both_empty {Stim Gen} fuel pf (e : env Stim Gen) m :
  anythingToExecute (m_cfg m) = true -> e_empty e = true ->
  exists m', run fuel pf e m = Returned m' /\ r_eq (m_res m') = Equivalent /\
    m_checkers m' = m_checkers m /\ m_gen m' = m_gen m /\ r_started (m_res m') = r_started (m_res m).
Proof. exact (c13_empty fuel pf e m). Qed.
Print Assumptions C13_both_empty.

Example C13_example : anythingToExecute (demo_cfg false true false false 0 0 false) = false /\
                      anythingToExecute (demo_cfg false true false false 1 0 false) = true.
Proof. split; reflexivity. Qed.

(** ** C14 *)
Theorem C14_alternating_decides {Stim Gen} fuel pf (e : env Stim Gen) c g pp :
  choose_flow e c = FSequential -> hasTimeout c = false -> (maxSims (sim c) < N.of_nat fuel)%N ->
  sims_do_not_refute e c g ->
  runAlternatingChecker (exec c) = true -> ctor_throws e c KAlt = false -> e_canHandle e = true ->
  exists m', run fuel pf e (fresh c g pp) = Returned m' /\ r_eq (m_res m') = mcrit (e_alt e).
Proof. exact (c14_alt fuel pf e c g pp). Qed.
Print Assumptions C14_alternating_decides.

Theorem C14_construction_decides {Stim Gen} fuel pf (e : env Stim Gen) c g pp :
  choose_flow e c = FSequential -> hasTimeout c = false -> (maxSims (sim c) < N.of_nat fuel)%N ->
  sims_do_not_refute e c g ->
  runAlternatingChecker (exec c) = false ->
  runConstructionChecker (exec c) = true -> ctor_throws e c KCon = false ->
  exists m', run fuel pf e (fresh c g pp) = Returned m' /\ r_eq (m_res m') = mcrit (e_con e).
Proof. exact (c14_con fuel pf e c g pp). Qed.
Print Assumptions C14_construction_decides.

(** all four checkers, ZX disagrees, simulations agree: the alternating checker's verdict is reported *)
Example C14_example :
  let e := demo_env (fun _ => false) MGlobalPhase MEquivalent ZFail true false None in
  let c := demo_cfg true true true true 10 0 true in
  choose_flow e c = FSequential /\ sims_do_not_refute e c 0%N /\
  exists m', run 20 no_par e (fresh c 0%N 0) = Returned m' /\ r_eq (m_res m') = EquivalentUpToGlobalPhase.
Proof.
  cbn zeta. split; [reflexivity|]. split.
  - intros _. split; [reflexivity|]. split; [apply demo_total|]. intros x _. discriminate.
  - eexists. split; [vm_compute; reflexivity|]. reflexivity.
Qed.

(** ** C18 *)
Theorem C18_symbolic_verdicts {Stim Gen} fuel pf (e : env Stim Gen) m m' :
  choose_flow e (m_cfg m) = FSymbolic -> run fuel pf e m = Returned m' ->
  let q := r_eq (m_res m') in
  (q = NoInformation \/ (e_transformable e = true /\ q = zcrit (e_ancilla e) (e_zx e))) /\
  (e_transformable e = false \/ fired e (m_cfg m) 0 = true -> q = NoInformation) /\
  (hasTimeout (m_cfg m) = false -> e_transformable e = true -> q = zcrit (e_ancilla e) (e_zx e)) /\
  q <> NotEquivalent /\ q <> ProbablyEquivalent /\ q <> EquivalentUpToPhase /\
  r_started (m_res m') = r_started (m_res m) /\ m_gen m' = m_gen m.
Proof. exact (c18_symbolic fuel pf e m m'). Qed.
Print Assumptions C18_symbolic_verdicts.

(** note that the ZX checker runs although it is disabled in this configuration *)
Example C18_example :
  let e := demo_sym ZGlobalPhase true None in
  let c := demo_cfg false true true false 5 0 false in
  choose_flow e c = FSymbolic /\ runZXChecker (exec c) = false /\
  exists m', run 20 no_par e (fresh c 0%N 0) = Returned m' /\ r_eq (m_res m') = EquivalentUpToGlobalPhase.
Proof. cbn zeta. repeat split. eexists. split; [vm_compute; reflexivity|]. repeat split. Qed.

(** ** C51: the assertion "this can only happen if the ZX checker is the only checker" *)
Theorem C51_assertion_fails_exactly {Stim Gen} fuel pf (e : env Stim Gen) c g pp :
  choose_flow e c = FSequential -> hasTimeout c = false -> gen_supplies e g (maxSims (sim c)) ->
  (maxSims (sim c) < N.of_nat fuel)%N -> no_exceptions e c ->
  (run fuel pf e (fresh c g pp) = AssertFailed <->
   e_ndebug e = false /\ runSimulationChecker (exec c) = true /\ maxSims (sim c) = 0%N /\
   runAlternatingChecker (exec c) = false /\ runConstructionChecker (exec c) = false /\
   runZXChecker (exec c) = true /\ e_transformable e = true /\ e_zx e = ZFail /\ e_ancilla e = true).
Proof. exact (assert_exact fuel pf e c g pp). Qed.
Print Assumptions C51_assertion_fails_exactly.

Theorem C51_assertion_holds_refuted :
  exists (e : env N N) c, choose_flow e c = FSequential /\ hasTimeout c = false /\ no_exceptions e c /\
    run 20 no_par e (fresh c 0%N 0) = AssertFailed.
Proof.
  exists (demo_env (fun _ => false) MEquivalent MEquivalent ZFail true true None),
         (demo_cfg false true false true 0 0 false).
  split; [reflexivity|]. split; [reflexivity|]. split; [repeat split|vm_compute; reflexivity].
Qed.
Print Assumptions C51_assertion_holds_refuted.
