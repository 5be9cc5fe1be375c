(** Properties of the sequential and the symbolic flow next to their timeout thread: C78.
    Model: SeqThreads.v.  Vocabulary: SeqThreadsSpec.v, Trace.v.  [s_init timeout p n f]: the function starts, with [n] checkers left from
    earlier runs whose flags are [f]; [sequential_prog]/[symbolic_prog]: what the calling thread does; a schedule is any list of steps of the
    two threads, spurious wake-ups and the deadline. *)
From Coq Require Import String List Bool NArith QArith Arith.
From Verif Require Import Criterion Config SeqFlow SeqDemo Trace SeqThreads SeqThreadsSpec SeqThreadsProofs4.
From Verif Require SeqThreadsProofs3 SeqThreadsProofs5.
Import ListNotations.
Local Open Scope list_scope.
Local Open Scope nat_scope.

(** what can come out of a run next to its timeout thread, over all interleavings, is what SeqFlow.v describes by the moment at which the
    timeout fires (or never) and the checkers that notice it: no more and no less *)
Theorem C78_interleavings_exact_sequential {Stim Gen} (e : env Stim Gen) c fuel m n f o : m_cfg m = c -> m_done m = false ->
  ((exists acts, leaves acts (s_init (hasTimeout c) (sequential_prog fuel e c (of_mgr m)) n f) o) <->
   (exists fire notice, o = remains (checkSequential fuel (timed e fire notice) m))).
Proof. exact (exact_sequential e c fuel m n f o). Qed.
Print Assumptions C78_interleavings_exact_sequential.
Theorem C78_interleavings_exact_symbolic {Stim Gen} (e : env Stim Gen) c m n f o : m_cfg m = c -> m_done m = false ->
  ((exists acts, leaves acts (s_init (hasTimeout c) (symbolic_prog e c (of_mgr m)) n f) o) <->
   (exists fire notice, o = remains (checkSymbolic (timed e fire notice) m))).
Proof. exact (exact_symbolic e c m n f o). Qed.
Print Assumptions C78_interleavings_exact_symbolic.

(** an execution that goes on forever wakes up spuriously again and again *)
Theorem C78_executions_end {A} (ws : nat -> shared A) (acts : nat -> sact) m :
  (forall n, sstep (acts n) (ws n) = Some (ws (S n))) -> exists n, m <= n /\ acts n = SSpurious.
Proof. exact (SeqThreadsProofs3.no_infinite ws acts m). Qed.
Print Assumptions C78_executions_end.
(** no deadlock: until the function is left, something other than a spurious wake-up can happen *)
Theorem C78_no_deadlock {A} (w : shared A) : stopped w = false -> exists a w', a <> SSpurious /\ sstep a w = Some w'.
Proof. exact (SeqThreadsProofs3.never_stuck w). Qed.
Print Assumptions C78_no_deadlock.

(** a notification that does not fall between the timeout thread's look at [done] and its going to sleep is not lost: from then on the
    calling thread never waits for the deadline *)
Theorem C78_notified_in_time {A} (w w1 w' : shared A) p cut :
  w_prog w = PNotify p -> w_done w = true -> w_tm w <> TEnqueue -> sstep (SMain cut) w = Some w1 -> reached w1 w' -> ~ only_time_helps w'.
Proof. exact (SeqThreadsProofs3.prompt w w1 w' p cut). Qed.
Print Assumptions C78_notified_in_time.

(** and every execution that returns with the question settled contains such a notification: a run that was decided does not just let the timeout elapse *)
Theorem C78_settled_is_announced_sequential {Stim Gen} (e : env Stim Gen) c fuel s n f acts l : hasTimeout c = true ->
  r_eq (f_res s) = NoInformation \/ r_eq (f_res s) = ProbablyEquivalent ->
  leaves acts (s_init true (sequential_prog fuel e c s) n f) (Returned l) -> settled c l -> announced acts (s_init true (sequential_prog fuel e c s) n f).
Proof. exact (fun HT HL => SeqThreadsProofs5.settled_announced _ _ n f acts l (SeqThreadsProofs5.ann_sequential e c HT fuel s false HL)). Qed.
Print Assumptions C78_settled_is_announced_sequential.
Theorem C78_settled_is_announced_symbolic {Stim Gen} (e : env Stim Gen) c s n f acts l : hasTimeout c = true ->
  r_eq (f_res s) = NoInformation \/ r_eq (f_res s) = ProbablyEquivalent ->
  leaves acts (s_init true (symbolic_prog e c s) n f) (Returned l) -> r_eq (f_res l) <> NoInformation /\ r_eq (f_res l) <> ProbablyEquivalent ->
  announced acts (s_init true (symbolic_prog e c s) n f).
Proof. exact (fun HT HL => SeqThreadsProofs5.settled_announced _ _ n f acts l (SeqThreadsProofs5.ann_symbolic e c HT s false HL)). Qed.
Print Assumptions C78_settled_is_announced_symbolic.

(** the demonstration run: alternating checker only, timeout of 5 seconds, the checker proves equivalence *)
Definition sc_env := demo_env (fun _ => false) MEquivalent MEquivalent ZEquivalent true false None.
Definition sc_cfg := demo_cfg false false true false 0 5 false.
Definition sc_init := s_init true (sequential_prog 3 sc_env sc_cfg (of_mgr (fresh sc_cfg 0%N 0))) 0 (fun _ => false).
Definition main_n (n : nat) : list sact := repeat (SMain false) n.
Definition or_init (o : option (shared (outcome (left_over N N)))) : shared (outcome (left_over N N)) := match o with Some w => w | None => sc_init end.

(** but one that does is lost: the check is decided and announced, and run() still returns only when the timeout has elapsed *)
Theorem C78_announcement_wakes_refuted :
  ~ (forall (e : env N N) c fuel m n f w, m_cfg m = c -> m_done m = false -> hasTimeout c = true ->
       reached (s_init true (sequential_prog fuel e c (of_mgr m)) n f) w -> joining w -> w_done w = true -> ~ only_time_helps w).
Proof.
  intros H.
  apply (H sc_env sc_cfg 3 (fresh sc_cfg 0%N 0) 0 (fun _ => false) (or_init (srun ([STimer; STimer] ++ main_n 6 ++ [STimer]) sc_init))); try reflexivity.
  - exists ([STimer; STimer] ++ main_n 6 ++ [STimer]). vm_compute. reflexivity.
  - eexists. vm_compute. reflexivity.
  - split; [intros [|]; vm_compute; reflexivity|]. split; vm_compute; reflexivity.
Qed.
Print Assumptions C78_announcement_wakes_refuted.

(** and if nothing refutes the circuits, neither decision diagram checker is enabled and the ZX checker does not support the circuits,
    nothing is ever announced: every execution with a timeout that returns has waited for the deadline *)
Theorem C78_waits_for_the_deadline {Stim Gen} (e : env Stim Gen) c fuel s n f acts l : hasTimeout c = true ->
  runAlternatingChecker (exec c) = false -> runConstructionChecker (exec c) = false -> runZXChecker (exec c) = true ->
  e_transformable e = false -> (forall x, scrit (e_sim e x) <> NotEquivalent) -> r_eq (f_res s) <> NotEquivalent ->
  leaves acts (s_init true (sequential_prog fuel e c s) n f) (Returned l) -> In SDeadline acts.
Proof. exact (fun HT => needs_deadline e c HT fuel s n f acts l). Qed.
Print Assumptions C78_waits_for_the_deadline.

(** data races: without a timeout there are none; with a timeout every run that returns contains one, on [done] *)
Theorem C78_no_timeout_race_free {A} acts (p : prog A) n f : race_free (s_prefix false ++ strace acts (s_init false p n f)).
Proof. exact (no_timeout_race_free acts p n f). Qed.
Print Assumptions C78_no_timeout_race_free.
Theorem C78_timeout_races_sequential {Stim Gen} (e : env Stim Gen) c fuel s n f acts l : hasTimeout c = true -> anythingToExecute c = true ->
  leaves acts (s_init true (sequential_prog fuel e c s) n f) (Returned l) ->
  exists i j, race_on (s_prefix true ++ strace acts (s_init true (sequential_prog fuel e c s) n f)) SDone i j.
Proof. exact (fun HT => races_sequential e c HT fuel s n f acts l). Qed.
Print Assumptions C78_timeout_races_sequential.
Theorem C78_timeout_races_symbolic {Stim Gen} (e : env Stim Gen) c s n f acts l : hasTimeout c = true ->
  leaves acts (s_init true (symbolic_prog e c s) n f) (Returned l) ->
  exists i j, race_on (s_prefix true ++ strace acts (s_init true (symbolic_prog e c s) n f)) SDone i j.
Proof. exact (fun HT => races_symbolic e c HT s n f acts l). Qed.
Print Assumptions C78_timeout_races_symbolic.

(** the vector of checkers can grow while the timeout thread iterates over it: the simulation checker is there and has agreed, the calling
    thread has seen that the check is not done, the deadline passes, the timeout thread enters its loop, the alternating checker is appended *)
Definition ub_cfg := demo_cfg false true true false 1 5 false.
Definition ub_init := s_init true (sequential_prog 3 sc_env ub_cfg (of_mgr (fresh ub_cfg 0%N 0))) 0 (fun _ => false).
Definition ub_sched : list sact := main_n 4 ++ [STimer; STimer; STimer; SDeadline; STimer; STimer; SMain false].
Theorem C78_iteration_safe_refuted :
  ~ (forall (e : env N N) c fuel m n f w, m_cfg m = c -> m_done m = false -> hasTimeout c = true ->
       reached (s_init true (sequential_prog fuel e c (of_mgr m)) n f) w -> w_ub w = false).
Proof.
  intros H.
  assert (F : w_ub (or_init (srun ub_sched ub_init)) = false).
  { apply (H sc_env ub_cfg 3 (fresh ub_cfg 0%N 0) 0 (fun _ => false)); try reflexivity. exists ub_sched. vm_compute. reflexivity. }
  vm_compute in F. discriminate.
Qed.
Print Assumptions C78_iteration_safe_refuted.

(** *** the hypotheses are met *)
Example C78_example_timeout : hasTimeout sc_cfg = true /\ anythingToExecute sc_cfg = true.
Proof. vm_compute. auto. Qed.
(** an execution in which the notification arrives in time, and one in which the deadline passes first and the checker gives up *)
Example C78_example_in_time :
  let acts := [STimer; STimer; STimer] ++ main_n 6 ++ [STimer; STimer; STimer; SMain false] in
  exists l, leaves acts sc_init (Returned l) /\ r_eq (f_res l) = Equivalent /\ ~ In SDeadline acts.
Proof.
  eexists. split; [eexists; split; [vm_compute; reflexivity|split; vm_compute; reflexivity]|]. split; [vm_compute; reflexivity|].
  cbn. intros H. repeat (destruct H as [H|H]; [discriminate|]). exact H.
Qed.
Example C78_example_cut_short :
  exists acts l, leaves acts sc_init (Returned l) /\ r_eq (f_res l) = NoInformation.
Proof.
  exists (main_n 3 ++ [STimer; STimer; STimer; SDeadline; STimer; STimer; STimer; STimer; STimer] ++ [SMain true; SMain false]). eexists.
  split; [eexists; split; [vm_compute; reflexivity|split; vm_compute; reflexivity]|]. vm_compute. reflexivity.
Qed.
(** the first of them is settled; so is a run of simulations only that agree *)
Example C78_example_settled :
  r_eq (f_res (of_mgr (fresh (Stim:=N) sc_cfg 0%N 0))) = NoInformation /\
  (let acts := [STimer; STimer; STimer] ++ main_n 6 ++ [STimer; STimer; STimer; SMain false] in
   exists l, leaves acts sc_init (Returned l) /\ settled sc_cfg l) /\
  let only_sims := demo_cfg false true false false 1 5 false in
  exists acts l, leaves acts (s_init true (sequential_prog 3 sc_env only_sims (of_mgr (fresh only_sims 0%N 0))) 0 (fun _ => false)) (Returned l) /\
    r_eq (f_res l) = ProbablyEquivalent /\ settled only_sims l.
Proof.
  split; [reflexivity|]. split.
  - eexists. split; [eexists; split; [vm_compute; reflexivity|split; vm_compute; reflexivity]|]. left. vm_compute. split; discriminate.
  - exists (main_n 5 ++ [STimer; STimer; STimer; SMain false]). eexists.
    split; [eexists; split; [vm_compute; reflexivity|split; vm_compute; reflexivity]|]. split; [vm_compute; reflexivity|]. right. vm_compute. auto.
Qed.
(** the state of C78_notified_in_time: the timeout thread sleeps *)
Example C78_example_notify :
  exists w p, reached sc_init w /\ w_prog w = PNotify p /\ w_done w = true /\ w_tm w = TWait /\ stopped w = false.
Proof.
  exists (or_init (srun ([STimer; STimer; STimer] ++ main_n 5) sc_init)). eexists. split; [|split; [vm_compute; reflexivity|repeat split; vm_compute; reflexivity]].
  exists ([STimer; STimer; STimer] ++ main_n 5). vm_compute. reflexivity.
Qed.
(** simulations that agree and circuits ZX does not support *)
Definition wait_env := demo_env (fun _ => false) MEquivalent MEquivalent ZEquivalent false false None.
Definition wait_cfg := demo_cfg false true false true 1 5 false.
Definition wait_init := s_init true (sequential_prog 3 wait_env wait_cfg (of_mgr (fresh wait_cfg 0%N 0))) 0 (fun _ => false).
Example C78_example_waits :
  hasTimeout wait_cfg = true /\ (forall x, scrit (e_sim wait_env x) <> NotEquivalent) /\
  exists acts l, leaves acts wait_init (Returned l) /\ r_eq (f_res l) = ProbablyEquivalent.
Proof.
  split; [reflexivity|]. split; [discriminate|].
  exists (main_n 4 ++ [STimer; STimer; STimer; SDeadline; STimer; STimer; STimer; STimer; STimer; SMain false]). eexists.
  split; [eexists; split; [vm_compute; reflexivity|split; vm_compute; reflexivity]|]. vm_compute. reflexivity.
Qed.
(** a symbolic run *)
Example C78_example_symbolic :
  exists acts l, leaves acts (s_init true (symbolic_prog (demo_sym ZEquivalent true None) sc_cfg (of_mgr (fresh sc_cfg 0%N 0))) 0 (fun _ => false)) (Returned l)
    /\ r_eq (f_res l) = Equivalent.
Proof.
  exists (main_n 6 ++ [STimer; STimer; STimer; SMain false]). eexists.
  split; [eexists; split; [vm_compute; reflexivity|split; vm_compute; reflexivity]|]. vm_compute. reflexivity.
Qed.
