(** Properties of the parallel flow: C02, C03, C04, C05 (parallel parts), C06, C07, C08, C15, C52, C53, C54.
    Model: ParFlow.v.  Vocabulary: SeqSpec.v, ParSpec.v.  [par_returned e c g pp s] says that some
    interleaving, started on a fresh manager with configuration [c] and generator state [g], ends with run()
    returning the results [p_res s]; all theorems quantify over all interleavings. *)
From Coq Require Import String List Bool NArith QArith Permutation.
From Verif Require Import Criterion Config SeqFlow SeqSpec SeqDemo ParFlow ParSpec ParDemo ParProofs5 ParProofs6 ParProofs7.
Import ListNotations.
Local Open Scope list_scope.

(** ** C02 *)
Theorem C02_parallel_verdict_source {Stim Gen} (e : env Stim Gen) c g pp s :
  sane_sims c -> enough_threads e c -> par_returned e c g pp s ->
  let q := r_eq (p_res s) in
  (q = Equivalent \/ q = EquivalentUpToGlobalPhase -> from_exact_checker e c q \/ from_zx_checker e c q) /\
  (q = NotEquivalent -> from_exact_checker e c q \/ refuted_by_simulation e c g) /\
  q <> EquivalentUpToPhase.
Proof. exact (pf_source e c g pp s). Qed.
Print Assumptions C02_parallel_verdict_source.

Theorem C02_parallel_sound {Stim Gen} (truth : criterion -> Prop) (e : env Stim Gen) c g pp s :
  sane_sims c -> enough_threads e c ->
  (runAlternatingChecker (exec c) = true -> e_canHandle e = true -> truth (mcrit (e_alt e))) ->
  (runConstructionChecker (exec c) = true -> truth (mcrit (e_con e))) ->
  (runZXChecker (exec c) = true -> e_transformable e = true ->
     zcrit (e_ancilla e) (e_zx e) = Equivalent \/ zcrit (e_ancilla e) (e_zx e) = EquivalentUpToGlobalPhase ->
     truth (zcrit (e_ancilla e) (e_zx e))) ->
  (forall y, drawn_from e g y -> e_sim e y = SNotEquivalent -> truth NotEquivalent) ->
  par_returned e c g pp s ->
  definitive (r_eq (p_res s)) -> truth (r_eq (p_res s)).
Proof. exact (pf_sound truth e c g pp s). Qed.
Print Assumptions C02_parallel_sound.

(** all four checkers, three threads, the second stimulus refutes; the alternating checker is cancelled *)
Definition refute_env := demo_env (N.eqb 1) MNotEquivalent MNotEquivalent ZFail true true None.
Definition refute_cfg := pdemo_cfg 5 true true true true 10 0 true.
Definition refute_sched : list action :=
  mains 6 ++ works 3 5 ++ mains 1 ++ works 0 2 ++ works 3 5 ++ mains 1 ++ mains 6 ++ [AAbort 0; AWorker 0]
   ++ works 1 3 ++ works 2 3 ++ works 4 4 ++ mains 1.
Example C02_example :
  choose_flow refute_env refute_cfg = FParallel /\ sane_sims refute_cfg /\ enough_threads refute_env refute_cfg /\
  exists s, prun refute_env refute_sched (par_init refute_env refute_cfg 0%N 0) = Some s /\
    p_main s = MReturned /\ r_eq (p_res s) = NotEquivalent /\ r_cexIn (p_res s) = Some 1%N /\
    r_performed (p_res s) = 2%N /\ r_started (p_res s) = 3%N.
Proof.
  split; [reflexivity|]. split; [reflexivity|]. split; [discriminate|].
  eexists. split; [vm_compute; reflexivity|]. repeat split.
Qed.

(** ** C03 (parallel part) *)
Theorem C03_parallel_probably_equivalent {Stim Gen} (e : env Stim Gen) c g pp s :
  sane_sims c -> enough_threads e c -> par_returned e c g pp s ->
  r_eq (p_res s) = ProbablyEquivalent ->
  exists l used rest, draws e g l (p_gen s) /\ Permutation l (used ++ rest) /\ used <> [] /\
    N.of_nat (length used) = r_performed (p_res s) /\ Forall (nonref e) used.
Proof. exact (pf_pe e c g pp s). Qed.
Print Assumptions C03_parallel_probably_equivalent.

Theorem C03_parallel_probably_not_equivalent {Stim Gen} (e : env Stim Gen) c g pp s :
  sane_sims c -> enough_threads e c -> par_returned e c g pp s ->
  r_eq (p_res s) = ProbablyNotEquivalent ->
  runZXChecker (exec c) = true /\ e_transformable e = true /\ e_zx e = ZFail /\ e_ancilla e = false.
Proof. exact (pf_pne e c g pp s). Qed.
Print Assumptions C03_parallel_probably_not_equivalent.

(** only simulations: two threads, three simulations *)
Definition pe_env := demo_env (fun _ => false) MEquivalent MEquivalent ZFail true false None.
Definition pe_cfg := pdemo_cfg 2 false true false false 3 0 true.
Example C03_parallel_example :
  choose_flow pe_env pe_cfg = FParallel /\ sane_sims pe_cfg /\ enough_threads pe_env pe_cfg /\
  exists s, prun pe_env (mains 3 ++ works 1 5 ++ mains 1 ++ works 1 5 ++ works 0 5 ++ mains 2 ++ mains 4)
              (par_init pe_env pe_cfg 0%N 0) = Some s /\
    p_main s = MReturned /\ r_eq (p_res s) = ProbablyEquivalent /\ r_performed (p_res s) = 3%N.
Proof.
  split; [reflexivity|]. split; [reflexivity|]. split; [discriminate|].
  eexists. split; [vm_compute; reflexivity|]. repeat split.
Qed.
(** the timeout strikes after ZX gave 'probably not equivalent' and before the alternating checker ends *)
Example C03_parallel_example_pne :
  let c := pdemo_cfg 2 false false true true 3 (1#2) true in
  choose_flow pe_env c = FParallel /\ sane_sims c /\ enough_threads pe_env c /\
  exists s, prun pe_env (mains 3 ++ works 1 4 ++ mains 1 ++ [ATimeout] ++ mains 3 ++ works 0 3 ++ mains 1)
              (par_init pe_env c 0%N 0) = Some s /\
    p_main s = MReturned /\ r_eq (p_res s) = ProbablyNotEquivalent.
Proof.
  cbn zeta. split; [reflexivity|]. split; [reflexivity|]. split; [discriminate|].
  eexists. split; [vm_compute; reflexivity|]. repeat split.
Qed.

(** ** C04 (parallel part) *)
Theorem C04_parallel_counters {Stim Gen} (e : env Stim Gen) c g pp s :
  sane_sims c -> enough_threads e c -> par_returned e c g pp s ->
  (r_performed (p_res s) <= r_started (p_res s))%N /\ (r_started (p_res s) <= maxSims (sim c))%N /\
  (r_started (p_res s) - r_performed (p_res s) <= N.of_nat (length (p_slots s)))%N /\
  (N.of_nat (length (p_slots s)) <= nthreads (exec c))%N.
Proof. exact (pf_counts e c g pp s). Qed.
Print Assumptions C04_parallel_counters.

Theorem C04_parallel_only_simulations {Stim Gen} (e : env Stim Gen) c g pp s :
  sane_sims c -> enough_threads e c -> par_returned e c g pp s ->
  onlySimulationCheckerConfigured c = true -> (0 < maxSims (sim c))%N -> hasTimeout c = false ->
  r_eq (p_res s) <> NotEquivalent ->
  r_performed (p_res s) = maxSims (sim c) /\ r_eq (p_res s) = ProbablyEquivalent.
Proof. exact (pf_only_sim e c g pp s). Qed.
Print Assumptions C04_parallel_only_simulations.
(** [C03_parallel_example] and [C02_example] satisfy the hypotheses *)

(** ** C05 (parallel part) *)
Theorem C05_parallel_counterexample {Stim Gen} (e : env Stim Gen) c g pp s :
  sane_sims c -> enough_threads e c -> par_returned e c g pp s ->
  (r_cexIn (p_res s) = None /\ r_cexOut (p_res s) = None /\
    (r_eq (p_res s) = NotEquivalent -> from_exact_checker e c NotEquivalent)) \/
  (exists y, r_eq (p_res s) = NotEquivalent /\ simOn c = true /\ drawn_from e g y /\ e_sim e y = SNotEquivalent /\
     r_cexIn (p_res s) = (if storeCEXinput (sim c) then Some y else None) /\
     r_cexOut (p_res s) = (if storeCEXoutput (sim c) then Some y else None)).
Proof. exact (pf_cex e c g pp s). Qed.
Print Assumptions C05_parallel_counterexample.
(** and whenever the manager took note of a refuting simulation, its stimulus is the counterexample, even if an exact
    checker refutes as well *)
Theorem C05_parallel_counterexample_kept {Stim Gen} (e : env Stim Gen) c g pp s st :
  sane_sims c -> enough_threads e c -> par_returned e c g pp s ->
  In (KSim, NotEquivalent, st) (p_log s) ->
  exists y, st = Some y /\ r_eq (p_res s) = NotEquivalent /\ e_sim e y = SNotEquivalent /\
     r_cexIn (p_res s) = (if storeCEXinput (sim c) then Some y else None) /\
     r_cexOut (p_res s) = (if storeCEXoutput (sim c) then Some y else None).
Proof. exact (pf_cex_consumed e c g pp s st). Qed.
Print Assumptions C05_parallel_counterexample_kept.
(** [C02_example]: the counterexample is stimulus 1 although stimulus 2 is already being prepared *)

(** ** C06 *)
(** no schedule is longer than this bound, so a run that does not finish gets stuck *)
Theorem C06_schedules_bounded {Stim Gen} (e : env Stim Gen) c g pp acts s :
  prun e acts (par_init e c g pp) = Some s ->
  (length acts <= 8 * length (launches e c) + N.to_nat (effectiveThreads e c) + 5 + 8 * N.to_nat (maxSims (sim c)))%nat.
Proof. exact (pf_bounded e c g pp acts s). Qed.
Print Assumptions C06_schedules_bounded.

(** outside the hang condition every maximal schedule ends with run() returning *)
Theorem C06_returns {Stim Gen} (e : env Stim Gen) c g pp s :
  choose_flow e c = FParallel -> sane_sims c -> enough_threads e c -> no_exceptions e c -> gen_supplies e g (maxSims (sim c)) ->
  ~ hang_condition e c g -> reachable e c g pp s -> stuck e s -> p_main s = MReturned.
Proof. exact (pf_returns e c g pp s). Qed.
Print Assumptions C06_returns.

(** with the hang condition no schedule ever finishes, and from every state the main thread can end up waiting
    for a result that never comes *)
Theorem C06_hangs {Stim Gen} (e : env Stim Gen) c g pp :
  choose_flow e c = FParallel -> sane_sims c -> enough_threads e c -> no_exceptions e c -> hang_condition e c g ->
  (forall s, reachable e c g pp s -> ~ finished s) /\
  (forall s, reachable e c g pp s -> exists acts s', prun e acts s = Some s' /\ waits_forever e s').
Proof. exact (pf_hangs e c g pp). Qed.
Print Assumptions C06_hangs.

(** even when checkers throw, the flow can only wait forever in the hang condition *)
Theorem C06_waits_only_if {Stim Gen} (e : env Stim Gen) c g pp s :
  choose_flow e c = FParallel -> sane_sims c -> enough_threads e c -> gen_supplies e g (maxSims (sim c)) ->
  reachable e c g pp s -> waits_forever e s -> hang_condition e c g.
Proof. exact (waits_implies_hang e c g pp s). Qed.
Print Assumptions C06_waits_only_if.

Definition hang_env := demo_env (fun _ => false) MEquivalent MEquivalent ZFail true true None.
Definition hang_cfg := pdemo_cfg 3 false true false true 2 0 true.
Example C06_hang_example :
  choose_flow hang_env hang_cfg = FParallel /\ sane_sims hang_cfg /\ enough_threads hang_env hang_cfg /\
  no_exceptions hang_env hang_cfg /\ hang_condition hang_env hang_cfg 0%N.
Proof.
  split; [reflexivity|]. split; [reflexivity|]. split; [discriminate|].
  split; [repeat split; reflexivity|]. repeat split; try reflexivity.
  exists [0%N; 1%N], 2%N. split; [|split; [reflexivity|]].
  - repeat (econstructor; [reflexivity|]). constructor.
  - repeat constructor; discriminate.
Qed.
(** "run() always returns" is therefore false *)
Theorem C06_always_returns_refuted :
  exists (e : env N N) c g, choose_flow e c = FParallel /\ sane_sims c /\ enough_threads e c /\ no_exceptions e c /\
    gen_supplies e g (maxSims (sim c)) /\ forall pp s, reachable e c g pp s -> ~ finished s.
Proof.
  exists hang_env, hang_cfg, 0%N. destruct C06_hang_example as (H1 & H2 & H3 & H4 & H5).
  split; [assumption|]. split; [assumption|]. split; [assumption|]. split; [assumption|].
  split; [apply demo_total|]. intros pp. exact (proj1 (pf_hangs _ _ _ pp H1 H2 H3 H4 H5)).
Qed.
Print Assumptions C06_always_returns_refuted.
(** a case of [C06_returns]: all checkers enabled *)
Example C06_returns_example :
  no_exceptions refute_env refute_cfg /\ gen_supplies refute_env 0%N (maxSims (sim refute_cfg)) /\ ~ hang_condition refute_env refute_cfg 0%N.
Proof. split; [repeat split; reflexivity|]. split; [apply demo_total|]. intros [H _]. discriminate. Qed.

(** ** C07 *)
Theorem C07_in_bounds {Stim Gen} (e : env Stim Gen) c g pp s :
  sane_sims c -> enough_threads e c -> reachable e c g pp s -> p_main s <> MOutOfBounds.
Proof. exact (in_bounds e c g pp s). Qed.
Print Assumptions C07_in_bounds.

(** exactly when it fails: two threads and all three non-simulation checkers; the third launch is out of bounds, and
    the number of simulations to launch is max_sims instead of what fits *)
Theorem C07_out_of_bounds {Stim Gen} (e : env Stim Gen) c g pp :
  choose_flow e c = FParallel -> sane_sims c -> ~ enough_threads e c ->
  (nthreads (exec c) = 2%N /\ runAlternatingChecker (exec c) = true /\ runConstructionChecker (exec c) = true /\
   runZXChecker (exec c) = true /\ e_transformable e = true) /\
  (exists s, prun e [AMain; AMain; AMain] (par_init e c g pp) = Some s /\ p_main s = MOutOfBounds) /\
  (simOn c = true -> simulationsToStart e c = maxSims (sim c)).
Proof. exact (out_of_bounds e c g pp). Qed.
Print Assumptions C07_out_of_bounds.
Example C07_example :
  let c := pdemo_cfg 2 true true true true 16 0 true in
  choose_flow pe_env c = FParallel /\ sane_sims c /\ ~ enough_threads pe_env c.
Proof. cbn zeta. split; [reflexivity|]. split; [reflexivity|]. intros H. apply H. reflexivity. Qed.

(** ** C08 *)
(** after the signalling loop every running checker has its flag set (and can stop), and every checker that has not
    started running will not run *)
Theorem C08_cancellation_reaches_everyone {Stim Gen} (e : env Stim Gen) c g pp s :
  sane_sims c -> enough_threads e c -> reachable e c g pp s -> p_main s = MEnd ->
  forall i x, nth_error (p_slots s) i = Some x ->
    (sl_w x = WRun -> sl_flag x = true /\ abort_step i s <> None) /\
    (sl_w x = WRead -> exists s', worker_step e i s = Some s' /\
        exists x', nth_error (p_slots s') i = Some x' /\ sl_w x' = WPush /\ sl_chk x' = sl_chk x).
Proof. exact (cancel_reaches e c g pp s). Qed.
Print Assumptions C08_cancellation_reaches_everyone.
(** from the moment the flow has decided (even during the signalling loop) no further checker starts running *)
Theorem C08_no_new_run_after_decision {Stim Gen} (e : env Stim Gen) c g pp s i s' :
  sane_sims c -> enough_threads e c -> reachable e c g pp s -> decided (p_main s) = true -> worker_step e i s = Some s' ->
  forall j x', nth_error (p_slots s') j = Some x' -> sl_w x' = WRun ->
    exists x, nth_error (p_slots s) j = Some x /\ sl_w x = WRun.
Proof. exact (pf_no_new_run e c g pp s i s'). Qed.
Print Assumptions C08_no_new_run_after_decision.
(** a state to which both apply: worker 0 is running, worker 1 has just created its checker, worker 2 not yet *)
Example C08_example :
  exists s, prun refute_env (mains 6 ++ works 3 5 ++ mains 1 ++ works 3 5 ++ works 0 2 ++ works 1 1 ++ mains 7)
              (par_init refute_env refute_cfg 0%N 0) = Some s /\ p_main s = MEnd /\
    map (@sl_w N) (p_slots s) = [WRun; WRead; WStart KZX; WIdle; WStart KSim].
Proof. eexists. split; [vm_compute; reflexivity|]. split; reflexivity. Qed.

(** ** C15 *)
Theorem C15_definitive_without_zx_disagreement {Stim Gen} (e : env Stim Gen) c g pp s :
  sane_sims c -> enough_threads e c -> par_returned e c g pp s -> hasTimeout c = false ->
  (runAlternatingChecker (exec c) = true \/ runConstructionChecker (exec c) = true) ->
  ~ (runZXChecker (exec c) = true /\ e_transformable e = true /\ e_zx e = ZFail /\ e_ancilla e = false) ->
  from_exact_checker e c (r_eq (p_res s)) \/
  (from_zx_checker e c (r_eq (p_res s)) /\ (r_eq (p_res s) = Equivalent \/ r_eq (p_res s) = EquivalentUpToGlobalPhase)) \/
  (r_eq (p_res s) = NotEquivalent /\ refuted_by_simulation e c g).
Proof. exact (pf_definitive e c g pp s). Qed.
Print Assumptions C15_definitive_without_zx_disagreement.

Definition lost_cfg := pdemo_cfg 3 false true true true 1 0 true.
Definition lost_sched : list action :=
  mains 4 ++ works 0 2 ++ works 1 4 ++ works 2 5 ++ mains 2 ++ mains 4 ++ [AAbort 0; AWorker 0] ++ mains 1.
Definition kept_sched : list action :=
  mains 4 ++ works 0 4 ++ mains 1 ++ mains 4 ++ works 1 3 ++ works 2 4 ++ mains 1.
(** same circuits, same configuration, no timeout: one schedule reports 'equivalent', the other 'no information' *)
Theorem C15_schedule_independence_refuted :
  exists (e : env N N) c g pp s1 s2, choose_flow e c = FParallel /\ sane_sims c /\ enough_threads e c /\
    no_exceptions e c /\ hasTimeout c = false /\ runAlternatingChecker (exec c) = true /\ e_alt e = MEquivalent /\
    par_returned e c g pp s1 /\ r_eq (p_res s1) = Equivalent /\
    par_returned e c g pp s2 /\ r_eq (p_res s2) = NoInformation.
Proof.
  exists pe_env, lost_cfg, 0%N, 0.
  assert (A : exists s, prun pe_env kept_sched (par_init pe_env lost_cfg 0%N 0) = Some s /\ p_main s = MReturned /\ r_eq (p_res s) = Equivalent)
    by (eexists; split; [vm_compute; reflexivity|split; reflexivity]).
  assert (B : exists s, prun pe_env lost_sched (par_init pe_env lost_cfg 0%N 0) = Some s /\ p_main s = MReturned /\ r_eq (p_res s) = NoInformation)
    by (eexists; split; [vm_compute; reflexivity|split; reflexivity]).
  destruct A as (s1 & A1 & A2 & A3), B as (s2 & B1 & B2 & B3). exists s1, s2.
  split; [reflexivity|]. split; [reflexivity|]. split; [discriminate|]. split; [repeat split; reflexivity|].
  repeat split; auto; [exists kept_sched|exists lost_sched]; assumption.
Qed.
Print Assumptions C15_schedule_independence_refuted.
(** a run to which the positive theorem applies *)
Example C15_example :
  let c := pdemo_cfg 3 false true true false 4 0 true in
  exists s, prun pe_env (mains 4 ++ works 0 4 ++ mains 1 ++ mains 4 ++ works 1 4 ++ works 2 4 ++ mains 1)
              (par_init pe_env c 0%N 0) = Some s /\ p_main s = MReturned /\ r_eq (p_res s) = Equivalent /\
  sane_sims c /\ enough_threads pe_env c.
Proof. cbn zeta. eexists. split; [vm_compute; reflexivity|]. repeat split. discriminate. Qed.

(** ** C52: simulations are starved if there are only as many threads as other checkers *)
Theorem C52_simulations_starved {Stim Gen} (e : env Stim Gen) c g pp s :
  sane_sims c -> simOn c = true -> nthreads (exec c) = N.of_nat (length (exact_launches e c)) ->
  reachable e c g pp s -> r_started (p_res s) = 0%N /\ r_performed (p_res s) = 0%N.
Proof. exact (starved e c g pp s). Qed.
Print Assumptions C52_simulations_starved.
(** two threads, alternating and ZX and 16 simulations configured; stimulus 0 would refute *)
Example C52_example :
  let e := demo_env (fun _ => true) MNotEquivalent MNotEquivalent ZFail true true None in
  let c := pdemo_cfg 2 false true true true 16 0 true in
  choose_flow e c = FParallel /\ sane_sims c /\ simOn c = true /\ nthreads (exec c) = N.of_nat (length (exact_launches e c)).
Proof. repeat split. Qed.

(** ** C53: run() dereferences a missing checker only if a checker could not be constructed; then it may *)
Theorem C53_null_checker_only_if_constructor_throws {Stim Gen} (e : env Stim Gen) c g pp s :
  sane_sims c -> enough_threads e c -> reachable e c g pp s -> p_main s = MNullDeref ->
  exists k, In k (launches e c) /\ ctor_throws e c k = true.
Proof. exact (pf_null e c g pp s). Qed.
Print Assumptions C53_null_checker_only_if_constructor_throws.
Theorem C53_no_exceptions_returns {Stim Gen} (e : env Stim Gen) c g pp s :
  sane_sims c -> enough_threads e c -> no_exceptions e c -> reachable e c g pp s -> finished s -> p_main s = MReturned.
Proof. exact (finished_normal e c g pp s). Qed.
Print Assumptions C53_no_exceptions_returns.
(** the lookahead scheme is not available for simulations: with an alternating checker that finishes first, a null
    checker is dereferenced; in the other order the exception is reported properly *)
Definition null_cfg := pdemo_cfg_s Lookahead 2 false true true false 1 0 true.
Theorem C53_exception_always_reported_refuted :
  exists (e : env N N) c g pp s1 s2, choose_flow e c = FParallel /\ sane_sims c /\ enough_threads e c /\
    reachable e c g pp s1 /\ p_main s1 = MThrown /\ reachable e c g pp s2 /\ p_main s2 = MNullDeref.
Proof.
  exists pe_env, null_cfg, 0%N, 0.
  assert (A : exists s, prun pe_env (mains 3 ++ works 1 2 ++ mains 1 ++ works 0 4 ++ mains 1) (par_init pe_env null_cfg 0%N 0) = Some s /\ p_main s = MThrown)
    by (eexists; split; [vm_compute; reflexivity|reflexivity]).
  assert (B : exists s, prun pe_env (mains 3 ++ works 0 4 ++ works 1 2 ++ mains 1 ++ mains 3 ++ mains 1) (par_init pe_env null_cfg 0%N 0) = Some s /\ p_main s = MNullDeref)
    by (eexists; split; [vm_compute; reflexivity|reflexivity]).
  destruct A as (s1 & A1 & A2), B as (s2 & B1 & B2). exists s1, s2.
  split; [reflexivity|]. split; [reflexivity|]. split; [discriminate|].
  repeat split; auto; eexists; eassumption.
Qed.
Print Assumptions C53_exception_always_reported_refuted.

(** ** C54: after a worker's exception the other workers are not told to stop *)
Theorem C54_exception_does_not_cancel {Stim Gen} (e : env Stim Gen) c g pp s :
  sane_sims c -> enough_threads e c -> reachable e c g pp s -> p_main s = MUnwind ->
  p_done s = false /\ forall i, abort_step i s = None.
Proof. exact (no_cancel_after_exception e c g pp s). Qed.
Print Assumptions C54_exception_does_not_cancel.
(** a state in which the exception is on its way to the caller while the alternating checker is still running *)
Example C54_example :
  exists s, prun pe_env (mains 3 ++ works 1 2 ++ works 0 2 ++ mains 1) (par_init pe_env null_cfg 0%N 0) = Some s /\
    p_main s = MUnwind /\ map (@sl_w N) (p_slots s) = [WRun; WIdle].
Proof. eexists. split; [vm_compute; reflexivity|]. split; reflexivity. Qed.
