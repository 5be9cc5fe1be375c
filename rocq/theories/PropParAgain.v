(** C84: calling run() again on a manager that has not been reset, parallel flow. Only statements; the proofs are in ParAgainProofs*.v. *)
From Coq Require Import String List Bool NArith QArith Arith Lia.
From Verif Require Import Criterion Config SeqFlow SeqSpec SeqDemo ParFlow ParSpec ParDemo ParAgain ParAgainSpec ParAgainProofs ParAgainProofs2 ParAgainProofs3.
Import ListNotations.
Local Open Scope list_scope.
Local Open Scope nat_scope.

(** on a new (or reset) manager this model and that of ParFlow.v have the same reachable states *)
Theorem C84_first_run_agrees {Stim Gen} (e : env Stim Gen) c g pp s : sane_sims c -> enough_threads e c ->
  reachable e c g pp s <-> reached_again e c [] (mkResults NoInformation 0 0 None None pp) g s.
Proof. exact (fresh_reached e c g pp s). Qed.
Print Assumptions C84_first_run_agrees.

(** a run that has returned leaves only checkers that exist, and each of them has been told to stop or holds no verdict *)
Theorem C84_left_behind {Stim Gen} (e : env Stim Gen) c l r g s : reached_again e c l r g s -> p_main s = MReturned ->
  forall o, In o (left_by s) -> exists ck b, o = (Some ck, b) /\ (b = true \/ k_eq ck = NoInformation).
Proof. exact (left_behind e c l r g s). Qed.
Print Assumptions C84_left_behind.

(** a checker that has been told to stop never computes again: whatever the settings have become, its verdict is the old one (the ZX checker
    may turn it into "no information") *)
Theorem C84_stopped_checkers_never_run {Stim Gen} (e : env Stim Gen) c l r g s i ck :
  reached_again e c l r g s -> nth_error l i = Some (Some ck, true) -> i < length (p_slots s) ->
  exists x ck', nth_error (p_slots s) i = Some x /\ sl_chk x = Some ck' /\ k_kind ck' = k_kind ck /\
    (k_eq ck' = k_eq ck \/ (k_kind ck = KZX /\ k_eq ck' = NoInformation)).
Proof. exact (stopped_not_run e c l r g s i ck). Qed.
Print Assumptions C84_stopped_checkers_never_run.

(** where a definitive verdict of a run with any left-overs, under any settings, comes from: a verdict left over, or one that a started or
    left-over kind of checker computes for the circuits and settings of now; simulations contribute only refutations, for stimuli that the
    generator can yield or that were left over *)
Theorem C84_verdict_source {Stim Gen} (e : env Stim Gen) c l r g s : reached_again e c l r g s -> definitive (r_eq (p_res s)) ->
  (exists ck b, In (Some ck, b) l /\ k_eq ck = r_eq (p_res s)) \/
  (exists k, (In k (launches e c) \/ exists ck b, In (Some ck, b) l /\ k_kind ck = k) /\
     computes e (fun y => drawable e y \/ exists ck b, In (Some ck, b) l /\ k_stim ck = Some y) k (r_eq (p_res s)) /\
     (k <> KSim \/ r_eq (p_res s) = NotEquivalent)).
Proof. exact (again_source e c l r g s). Qed.
Print Assumptions C84_verdict_source.

(** any number of runs with unchanged circuits and settings: a definitive verdict is one that an enabled checker computes *)
Theorem C84_repeated_runs_source {Stim Gen} (e : env Stim Gen) c g pp s : sane_sims c -> enough_threads e c -> runs e c g pp s ->
  definitive (r_eq (p_res s)) ->
  exists k, enabled e c k /\ computes e (drawable e) k (r_eq (p_res s)) /\ (k <> KSim \/ r_eq (p_res s) = NotEquivalent).
Proof. exact (runs_source e c g pp s). Qed.
Print Assumptions C84_repeated_runs_source.
(** ... and true, if the enabled checkers tell the truth *)
Theorem C84_repeated_runs_sound {Stim Gen} (truth : criterion -> Prop) (e : env Stim Gen) c g pp s :
  sane_sims c -> enough_threads e c -> runs e c g pp s ->
  (runAlternatingChecker (exec c) = true -> e_canHandle e = true -> truth (mcrit (e_alt e))) ->
  (runConstructionChecker (exec c) = true -> truth (mcrit (e_con e))) ->
  (runZXChecker (exec c) = true -> e_transformable e = true ->
     zcrit (e_ancilla e) (e_zx e) = Equivalent \/ zcrit (e_ancilla e) (e_zx e) = EquivalentUpToGlobalPhase ->
     truth (zcrit (e_ancilla e) (e_zx e))) ->
  (forall y, drawable e y -> e_sim e y = SNotEquivalent -> truth NotEquivalent) ->
  definitive (r_eq (p_res s)) -> truth (r_eq (p_res s)).
Proof. exact (runs_sound truth e c g pp s). Qed.
Print Assumptions C84_repeated_runs_sound.

(** the number of steps of a run is bounded, whatever was left over *)
Theorem C84_steps_bounded {Stim Gen} (e : env Stim Gen) c l r g acts s : arun e acts (par_again e c l r g) = Some s ->
  length acts <= 8 * length (launches e c) + N.to_nat (effectiveThreads e c) + 5 + 8 * N.to_nat (maxSims (sim c)).
Proof. exact (again_bounded e c l r g acts s). Qed.
Print Assumptions C84_steps_bounded.

(** a simulation that is started where another kind of checker is left over: run() neither returns nor throws, on any schedule *)
Theorem C84_kind_mismatch_never_returns {Stim Gen} (e : env Stim Gen) c (l : list (left_over Stim)) r g s i ck b :
  zx_alone_unsupported e c = false -> i < N.to_nat (effectiveThreads e c) ->
  nth_error (launches e c) i = Some KSim -> nth_error l i = Some (Some ck, b) -> k_kind ck <> KSim ->
  reached_again e c l r g s -> ~ ended s.
Proof. exact (mismatch_never_ends e c l r g s i ck b). Qed.
Print Assumptions C84_kind_mismatch_never_returns.

(** simulations only and no timeout: after a first run that has refuted nothing, a second run never returns; on every schedule all threads end up
    waiting *)
Theorem C84_second_simulation_run_hangs {Stim Gen} (e : env Stim Gen) c g pp s0 : sane_sims c -> onlySimulationCheckerConfigured c = true ->
  (0 < maxSims (sim c))%N -> hasTimeout c = false -> par_returned e c g pp s0 -> r_eq (p_res s0) <> NotEquivalent ->
  forall s, next_run e (p_cfg s0) s0 s ->
    ~ finished s /\ exists acts s', arun e acts s = Some s' /\ again_stuck e s' /\ ~ finished s'.
Proof. exact (second_hangs e c g pp s0). Qed.
Print Assumptions C84_second_simulation_run_hangs.

(** *** what one might expect of a second run, and what is wrong *)
(** alternating checker and one simulation, two threads *)
Definition ag_cfg : config := pdemo_cfg 2 false true true false 1 0 true.
Definition ag_env : env N N := demo_env (fun _ => false) MEquivalent MEquivalent ZEquivalent true false None.
Definition ag_first : list action := mains 3 ++ works 1 3 ++ works 0 4 ++ mains 4 ++ [AAbort 1] ++ works 1 1 ++ mains 1.
Definition ag_second : list action := mains 3 ++ works 1 4 ++ mains 4 ++ works 0 3 ++ mains 1.

(** "the same question gets the same answer" *)
Theorem C84_same_answer_refuted : exists (e : env N N) c g pp s0 s,
  choose_flow e c = FParallel /\ sane_sims c /\ enough_threads e c /\ par_returned e c g pp s0 /\ choose_flow e (p_cfg s0) = FParallel /\
  next_run e (p_cfg s0) s0 s /\ p_main s = MReturned /\
  r_eq (p_res s0) = Equivalent /\ r_eq (p_res s) = NoInformation.
Proof.
  exists ag_env, ag_cfg, 0%N, 0%Q. eexists. eexists. split; [reflexivity|]. split; [reflexivity|]. split; [discriminate|].
  split; [split; [exists ag_first; vm_compute; reflexivity|reflexivity]|]. split; [reflexivity|].
  split; [exists ag_second; vm_compute; reflexivity|]. repeat split.
Qed.
Print Assumptions C84_same_answer_refuted.

(** "a change of the settings takes effect in the next run": here every enabled checker would now refute, and the answer is "equivalent" *)
Definition ag_env2 : env N N := demo_env (fun _ => true) MNotEquivalent MNotEquivalent ZFail true false None.
Theorem C84_changed_settings_refuted : exists (e e' : env N N) c g pp s0 s,
  choose_flow e c = FParallel /\ sane_sims c /\ enough_threads e c /\ par_returned e c g pp s0 /\ choose_flow e' (p_cfg s0) = FParallel /\
  next_run e' (p_cfg s0) s0 s /\ p_main s = MReturned /\
  (forall k q, enabled e' c k -> computes e' (fun _ => True) k q -> q = NotEquivalent) /\ r_eq (p_res s) = Equivalent.
Proof.
  exists ag_env, ag_env2, ag_cfg, 0%N, 0%Q. eexists. eexists. split; [reflexivity|]. split; [reflexivity|]. split; [discriminate|].
  split; [split; [exists ag_first; vm_compute; reflexivity|reflexivity]|]. split; [reflexivity|].
  split; [exists (mains 3 ++ works 0 3 ++ mains 4 ++ works 1 4 ++ mains 1); vm_compute; reflexivity|]. split; [reflexivity|]. split; [|reflexivity].
  intros [| | |] q E; cbn in *; try discriminate.
  - intros (y & _ & ->). reflexivity.
  - intros [_ ->]. reflexivity.
Qed.
Print Assumptions C84_changed_settings_refuted.

(** "a reported counterexample distinguishes the circuits": simulations only; only stimulus 0 refutes, and the second run reports stimulus 2 *)
Definition ag_env3 : env N N := demo_env (fun y => N.eqb y 0) MNotEquivalent MNotEquivalent ZFail true false None.
Definition ag_cfg3 : config := pdemo_cfg 2 false true false false 4 0 true.
Theorem C84_counterexample_refuted : exists (e : env N N) c g pp s0 s,
  choose_flow e c = FParallel /\ sane_sims c /\ enough_threads e c /\ par_returned e c g pp s0 /\ choose_flow e (p_cfg s0) = FParallel /\
  next_run e (p_cfg s0) s0 s /\ p_main s = MReturned /\
  exists st, r_eq (p_res s) = NotEquivalent /\ r_cexIn (p_res s) = Some st /\ e_sim e st = SEquivalent.
Proof.
  exists ag_env3, ag_cfg3, 0%N, 0%Q. eexists. eexists. split; [reflexivity|]. split; [reflexivity|]. split; [discriminate|].
  split; [split; [exists (mains 3 ++ works 0 5 ++ mains 4 ++ works 1 4 ++ mains 1); vm_compute; reflexivity|reflexivity]|]. split; [reflexivity|].
  split; [exists (mains 3 ++ works 0 4 ++ mains 4 ++ works 1 4 ++ mains 1); vm_compute; reflexivity|]. split; [reflexivity|].
  exists 2%N. repeat split.
Qed.
Print Assumptions C84_counterexample_refuted.

(** "the simulations reported by a run are those of this run, at most max_sims" *)
Theorem C84_simulation_count_refuted : exists (e : env N N) c g pp s0 s,
  choose_flow e c = FParallel /\ sane_sims c /\ enough_threads e c /\ par_returned e c g pp s0 /\ choose_flow e (p_cfg s0) = FParallel /\
  next_run e (p_cfg s0) s0 s /\ p_main s = MReturned /\ (maxSims (sim c) < r_performed (p_res s))%N.
Proof.
  exists ag_env3, (pdemo_cfg 2 false true true false 1 0 true), 0%N, 0%Q. eexists. eexists. split; [reflexivity|]. split; [reflexivity|]. split; [discriminate|].
  split; [split; [exists (mains 3 ++ works 1 5 ++ mains 4 ++ works 0 3 ++ mains 1); vm_compute; reflexivity|reflexivity]|]. split; [reflexivity|].
  split; [exists (mains 3 ++ works 1 4 ++ mains 4 ++ works 0 3 ++ mains 1); vm_compute; reflexivity|]. repeat split.
Qed.
Print Assumptions C84_simulation_count_refuted.

(** *** the hypotheses can be met *)
Definition ag_env4 : env N N := demo_env (fun _ => false) MEquivalent MEquivalent ZEquivalent true false None.
(** simulations only: a first run that returns *)
Example C84_example_hang :
  choose_flow ag_env4 ag_cfg3 = FParallel /\ sane_sims ag_cfg3 /\ onlySimulationCheckerConfigured ag_cfg3 = true /\ (0 < maxSims (sim ag_cfg3))%N /\
  hasTimeout ag_cfg3 = false /\
  exists s0, par_returned ag_env4 ag_cfg3 0%N 0%Q s0 /\ r_eq (p_res s0) = ProbablyEquivalent /\ choose_flow ag_env4 (p_cfg s0) = FParallel.
Proof.
  repeat (split; [reflexivity|]). eexists. split; [split; [exists (mains 3 ++ works 0 5 ++ mains 1 ++ works 0 5 ++ mains 1 ++ works 0 5 ++ works 1 5 ++ mains 2 ++ mains 4); vm_compute; reflexivity|reflexivity]|].
  split; reflexivity.
Qed.
(** the alternating checker is switched off after the first run: the simulation that takes its place finds an alternating checker *)
Example C84_example_mismatch : exists s0, par_returned ag_env ag_cfg 0%N 0%Q s0 /\
  let c' := pdemo_cfg 2 false true false false 4 0 true in
  choose_flow ag_env c' = FParallel /\ zx_alone_unsupported ag_env c' = false /\ 0 < N.to_nat (effectiveThreads ag_env c') /\
  nth_error (launches ag_env c') 0 = Some KSim /\ exists ck b, nth_error (left_by s0) 0 = Some (Some ck, b) /\ k_kind ck <> KSim.
Proof.
  eexists. split; [split; [exists ag_first; vm_compute; reflexivity|reflexivity]|]. cbn zeta. split; [reflexivity|]. split; [reflexivity|].
  split; [vm_compute; lia|]. split; [reflexivity|]. eexists. eexists. split; [reflexivity|]. discriminate.
Qed.
(** three runs in a row *)
Example C84_example_runs : exists s, runs ag_env ag_cfg 0%N 0%Q s /\ p_main s = MReturned /\ r_eq (p_res s) = Equivalent.
Proof.
  eexists. split.
  - eapply runs_next.
    + eapply runs_next.
      * apply runs_first. exists ag_first. vm_compute. reflexivity.
      * now left.
      * reflexivity.
      * exists ag_second. vm_compute. reflexivity.
    + now left.
    + reflexivity.
    + exists (mains 3 ++ works 0 3 ++ mains 4 ++ works 1 4 ++ mains 1). vm_compute. reflexivity.
  - split; reflexivity.
Qed.
