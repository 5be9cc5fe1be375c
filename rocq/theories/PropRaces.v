(** Properties of the memory accesses of the parallel flow: C77.
    Models: ParFlow.v (the steps), ParTrace.v (their accesses).  Vocabulary: Trace.v (happens-before and data races as in the C++ standard),
    RaceSpec.v.  [par_trace e c g pp tr s]: [tr] lists the accesses of some execution, with any interleaving, up to the state [s]. *)
From Coq Require Import String List Bool NArith QArith Arith.
From Verif Require Import Criterion Config SeqFlow SeqDemo ParFlow ParSpec ParDemo Trace TraceProofs ParTrace RaceSpec ParTraceProofs5 ParTraceProofs6 PropPar.
Import ListNotations.
Local Open Scope list_scope.
Local Open Scope nat_scope.

(** the traces are exactly those of the executions of the parallel flow (the model of C02 to C08, C15, C52 to C54) *)
Theorem C77_traces_cover_executions {Stim Gen} (e : env Stim Gen) c g pp acts s :
  prun e acts (par_init e c g pp) = Some s <->
  exists l T, trun e acts (t_init e c g pp) = Some (l, T) /\ t_st T = s.
Proof. exact (pr_cover e c g pp acts s). Qed.
Print Assumptions C77_traces_cover_executions.

(** the happens-before relation can be computed by vector clocks *)
Theorem C77_clocks_exact {L} (tr : trace L) p q t w : nth_error tr q = Some (t, w) ->
  (hb tr p q <-> p <> q /\ known (clk (firstn (S q) tr)) t p = true).
Proof. exact (pr_clocks tr p q t w). Qed.
Print Assumptions C77_clocks_exact.

(** as long as the check is undecided, no two threads race *)
Theorem C77_race_free_until_decided {Stim Gen} (e : env Stim Gen) c g pp tr s :
  par_trace e c g pp tr s -> p_done s = false -> race_free tr.
Proof. exact (pr_undecided e c g pp tr s). Qed.
Print Assumptions C77_race_free_until_decided.

(** what the results depend on never races: circuits, configuration, the stimuli generator, the results themselves, the queue, and
    everything a checker owns apart from its cancellation flag *)
Theorem C77_data_race_free {Stim Gen} (e : env Stim Gen) c g pp tr s l :
  par_trace e c g pp tr s ->
  l = LCircuits \/ l = LConfig \/ l = LGen \/ l = LResults \/ l = LQueue \/ (exists i, l = LChecker i) ->
  race_free_on tr l.
Proof. exact (pr_data e c g pp tr s l). Qed.
Print Assumptions C77_data_race_free.

(** every race is between setAndSignalDone in the main thread (or what the main thread does after it) and a thread that has not been waited
    for, on [done], on the entries of [checkers] or on the flags of the checkers *)
Theorem C77_races_only_in_cancellation {Stim Gen} (e : env Stim Gen) c g pp tr s l i j :
  par_trace e c g pp tr s -> race_on tr l i j ->
  (l = LDone \/ (exists k, l = LSlot k) \/ (exists k, l = LFlag k)) /\
  exists m w t a b d, ((m = i /\ w = j) \/ (m = j /\ w = i)) /\
    nth_error tr m = Some (main_thread, Acc a l) /\ nth_error tr w = Some (t, Acc b l) /\ t <> main_thread /\
    sets_done tr d /\ d <= m /\ not_waited_for tr t j.
Proof. exact (pr_where e c g pp tr s l i j). Qed.
Print Assumptions C77_races_only_in_cancellation.

(** a race on a flag is a race with its construction: signalDone and isDone themselves, being atomic, never race with each other *)
Theorem C77_flag_race_is_construction {Stim Gen} (e : env Stim Gen) c g pp tr s k i j :
  par_trace e c g pp tr s -> race_on tr (LFlag k) i j ->
  exists p t, (p = i \/ p = j) /\ nth_error tr p = Some (t, Acc Wr (LFlag k)).
Proof. exact (pr_flag e c g pp tr s k i j). Qed.
Print Assumptions C77_flag_race_is_construction.

(** and these are races whenever they occur: nothing orders setAndSignalDone before anything a worker does later *)
Theorem C77_cancellation_races {Stim Gen} (e : env Stim Gen) c g pp tr s l d m w t a b :
  par_trace e c g pp tr s -> sets_done tr d -> d <= m -> m < w ->
  nth_error tr m = Some (main_thread, Acc a l) -> nth_error tr w = Some (t, Acc b l) -> t <> main_thread -> conflicting a b ->
  race_on tr l m w.
Proof. exact (pr_read_after e c g pp tr s l d m w t a b). Qed.
Print Assumptions C77_cancellation_races.

(** so the parallel flow is not free of data races: in the run of C02_example, worker 1 starts after the decision, reads [done] and installs
    its checker without any ordering, and the flag of worker 0, which was just constructed, is written by both threads *)
Theorem C77_race_free_refuted :
  ~ (forall (e : env N N) c g pp tr s, choose_flow e c = FParallel -> enough_threads e c -> par_trace e c g pp tr s ->
       p_main s = MReturned -> race_free_on tr LDone) /\
  ~ (forall (e : env N N) c g pp tr s, choose_flow e c = FParallel -> enough_threads e c -> par_trace e c g pp tr s ->
       p_main s = MReturned -> race_free_on tr (LSlot 1)) /\
  ~ (forall (e : env N N) c g pp tr s, choose_flow e c = FParallel -> enough_threads e c -> par_trace e c g pp tr s ->
       p_main s = MReturned -> race_free_on tr (LFlag 0)).
Proof.
  pose (r := trun refute_env refute_sched (t_init refute_env refute_cfg 0%N 0)).
  pose (tr := init_events refute_env refute_cfg ++ match r with Some (l, _) => l | None => [] end).
  pose (s := match r with Some (_, T) => t_st T | None => par_init refute_env refute_cfg 0%N 0 end).
  assert (HP : par_trace refute_env refute_cfg 0%N 0 tr s).
  { unfold par_trace. exists refute_sched. unfold tr, s.
    assert (HS : exists p, r = Some p) by (eexists; vm_compute; reflexivity). destruct HS as [[l T] HS].
    exists l, T. unfold r in HS |- *. rewrite HS. repeat split. }
  assert (HT : enough_threads refute_env refute_cfg) by discriminate.
  assert (HM : p_main s = MReturned) by (vm_compute; reflexivity).
  split; [|split].
  - intros H. apply (H refute_env refute_cfg 0%N 0%Q tr s eq_refl HT HP HM 97 120).
    eapply race_on_intro with (t := 0) (u := 2) (a := Wr) (b := Rd);
      [apply Nat.ltb_lt|..]; try (vm_compute; reflexivity). discriminate.
  - intros H. apply (H refute_env refute_cfg 0%N 0%Q tr s eq_refl HT HP HM 100 119).
    eapply race_on_intro with (t := 0) (u := 2) (a := Rd) (b := Wr);
      [apply Nat.ltb_lt|..]; try (vm_compute; reflexivity). discriminate.
  - intros H. apply (H refute_env refute_cfg 0%N 0%Q tr s eq_refl HT HP HM 67 99).
    eapply race_on_intro with (t := 1) (u := 0) (a := Wr) (b := AtomicWr);
      [apply Nat.ltb_lt|..]; try (vm_compute; reflexivity). discriminate.
Qed.
Print Assumptions C77_race_free_refuted.

(** get() is only called on a future whose thread has been started and not yet been waited for *)
Theorem C77_futures_valid {Stim Gen} (e : env Stim Gen) c g pp acts l T i q :
  trun e acts (t_init e c g pp) = Some (l, T) -> p_main (t_st T) = MLoop -> p_queue (t_st T) = i :: q -> t_fut T i = true.
Proof. exact (pr_future e c g pp acts l T i q). Qed.
Print Assumptions C77_futures_valid.

(** when run() has returned or thrown, every worker has been waited for after its last action: no thread outlives the call *)
Theorem C77_no_thread_outlives_run {Stim Gen} (e : env Stim Gen) c g pp tr s :
  par_trace e c g pp tr s -> p_main s = MReturned \/ p_main s = MThrown ->
  forall p t w, nth_error tr p = Some (t, w) -> t <> main_thread ->
  exists q, p < q /\ nth_error tr q = Some (main_thread, Join t).
Proof. exact (pr_all_waited e c g pp tr s). Qed.
Print Assumptions C77_no_thread_outlives_run.

(** non-vacuity: before the decision of that run, three threads have already accessed the generator, the queue and slot 3 *)
Definition race_demo : option (trace loc * tst N N) :=
  trun refute_env (firstn 19 refute_sched) (t_init refute_env refute_cfg 0%N 0).
Example C77_example_undecided : exists l T, race_demo = Some (l, T) /\
  p_done (t_st T) = false /\ t_next T = 7 /\
  In (4, Acc Wr LGen) l /\ In (6, Acc Wr LGen) l /\ In (0, Join 4) l /\ In (6, Acc Wr (LChecker 3)) l /\ In (0, Acc Rd (LChecker 3)) l.
Proof. eexists. eexists. split; [vm_compute; reflexivity|]. repeat split; repeat (first [left; reflexivity|right]). Qed.
(** and in the complete run the hypotheses of the last theorem hold: threads 1 to 6 were started *)
Example C77_example_returned : exists l T, trun refute_env refute_sched (t_init refute_env refute_cfg 0%N 0) = Some (l, T) /\
  p_main (t_st T) = MReturned /\ t_next T = 7 /\ length l = 157.
Proof. eexists. eexists. split; [vm_compute; reflexivity|]. repeat split. Qed.
