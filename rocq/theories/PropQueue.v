(** C21, C22: the queue between the workers and the main thread, for every number of threads, every program and every schedule. *)
From Coq Require Import List Bool Arith.
From Verif Require Import Queue QueueSpec QueueProofs QueueProofs4 QueueProofs5.
Import ListNotations.

Section S.
Context {V : Type}.

(** ** C21 *)
(** no execution uses freed or null memory, and every execution is linearisable: each operation takes effect exactly once,
    between its call and its return, and the effects, in the order in which they happen, are those of a sequential queue *)
Theorem C21_linearisable : forall (sched : list (nat * choice V)) (tr : list (nat * ev V)) (o : outcome V),
  exec V (q_init V) sched = Some (tr, o) -> exists s q, o = Done V s /\ linearised tr q.
Proof. exact exec_linearised. Qed.

(** one consumer, any number of producers: the values it got are, in order, the first values that were pushed *)
Theorem C21_one_consumer_fifo : forall (sched : list (nat * choice V)) (tr : list (nat * ev V)) (o : outcome V) (c : nat),
  exec V (q_init V) sched = Some (tr, o) -> only_consumer c tr -> prefix (returned tr) (pushed tr).
Proof.
  intros sched tr o c H OC. destruct (exec_linearised _ _ _ H) as (s & q & _ & L). exact (linearised_prefix c tr q L OC).
Qed.

(** no deadlock: if nothing under way can continue, then every thread is idle or asleep in an untimed pop *)
Theorem C21_no_deadlock : forall (sched : list (nat * choice V)) (tr : list (nat * ev V)) (s : qst V),
  exec V (q_init V) sched = Some (tr, Done V s) -> (forall u, ~ can_move s u) ->
  forall t, q_pc V s t = Idle V \/ q_pc V s t = CSleep V KWait.
Proof. intros sched tr s H. destruct (exec_reach _ _ _ H) as (ns & h & I). exact (not_stuck s ns h tr I). Qed.

(** no livelock: between being called (or woken up) and returning (or going to sleep) a thread takes at most 13 steps, whatever
    the others do meanwhile *)
Theorem C21_bounded_work : forall (t : nat) (sched : list (nat * choice V)) (s s' : qst V) (tr : list (nat * ev V)),
  undisturbed t sched -> exec V s sched = Some (tr, Done V s') -> steps_of t sched <= 13.
Proof.
  intros t sched s s' tr U H. pose proof (bounded_work t sched s tr s' U H) as B. pose proof (rank_le (q_pc V s t)) as R.
  eapply Nat.le_trans; [|exact R]. eapply Nat.le_trans; [apply Nat.le_add_r|exact B].
Qed.

(** ** C22 *)
(** a timed pop that was called while (or before) the queue holds [v :: q] and that returns, returns [v]: a late wake-up delays
    it but does not make it return empty-handed *)
Theorem C22_timed_pop_gets_element : forall (sched : list (nat * choice V)) (tr1 tr2 : list (nat * ev V)) (o : outcome V) (c : nat)
    (r : res V) (v : V) (q : list V) (es : list (ev V)) (l : lin V),
  exec V (q_init V) sched = Some (tr1 ++ tr2 ++ [(c, ERet V r)], o) -> only_consumer c (tr1 ++ tr2) ->
  of_thread c tr1 = es ++ [ECall V (OPopUntil V)] -> of_thread c tr2 = [ELin V l] ->
  fifo [] (effects tr1) (v :: q) -> r = RVal V v.
Proof.
  intros sched tr1 tr2 o c r v q es l H OC E1 E2 F. destruct (exec_linearised _ _ _ H) as (s & q' & _ & L).
  exact (timed_takes c tr1 tr2 r v q q' es l L OC E1 E2 F).
Qed.

(** a timed pop never sleeps forever: as long as one is under way, something can move *)
Theorem C22_timed_pop_progress : forall (sched : list (nat * choice V)) (tr : list (nat * ev V)) (s : qst V) (t : nat) (es : list (ev V)),
  exec V (q_init V) sched = Some (tr, Done V s) -> of_thread t tr = es ++ [ECall V (OPopUntil V)] -> ~ (forall u, ~ can_move s u).
Proof.
  intros sched tr s t es H E NG. destruct (exec_reach _ _ _ H) as (ns & h & I).
  pose proof (i_thr _ _ _ _ I t) as T. rewrite E in T. destruct (not_stuck s ns h tr I NG t) as [P|P]; rewrite P in T; cbn in T.
  - inversion T as [X|es0 o l r C A X]; [now destruct es|]. apply (f_equal (@rev _)) in X. rewrite !rev_app_distr in X. discriminate.
  - destruct T as (_ & e0 & _ & X). apply app_inj_tail in X. destruct X as [_ X]. discriminate.
Qed.
End S.
Print Assumptions C21_linearisable.
Print Assumptions C21_one_consumer_fifo.
Print Assumptions C21_no_deadlock.
Print Assumptions C21_bounded_work.
Print Assumptions C22_timed_pop_gets_element.
Print Assumptions C22_timed_pop_progress.

(** the consumer (thread 0) has found the queue empty but does not sleep yet; thread 1 pushes 7 and notifies nobody; then the
    consumer goes to sleep *)
Definition lost : list (nat * choice nat) :=
  let g t := (t, Go nat) in
  [(0, Call nat (OPop nat)); g 0; g 0; g 0; g 0;
   (1, Call nat (OPush nat 7)); g 1; g 1; g 1; g 1; g 1; g 1;
   g 0].

(** the untimed pop sleeps although 7 is available, nobody else does anything, and nothing but a new call or a spurious wake-up
    can ever happen *)
Theorem C22_lost_wakeup_refuted :
  exists (sched : list (nat * choice nat)) (tr : list (nat * ev nat)) (s : qst nat),
    exec nat (q_init nat) sched = Some (tr, Done nat s) /\
    fifo [] (effects tr) [7] /\
    of_thread 0 tr = [ECall nat (OPop nat)] /\
    (forall t, t <> 0 -> complete (of_thread t tr)) /\
    (forall t, ~ can_move s t).
Proof.
  destruct (exec nat (q_init nat) lost) as [[tr [s|]]|] eqn:E; [|vm_compute in E; discriminate|vm_compute in E; discriminate].
  exists lost, tr, s. assert (ET : tr = [(0, ECall nat (OPop nat)); (1, ECall nat (OPush nat 7)); (1, ELin nat (LPush nat 7)); (1, ERet nat (RUnit nat))]).
  { vm_compute in E. injection E as <- _. reflexivity. }
  split; [exact E|]. split; [|split; [|split]].
  - rewrite ET. cbn. apply fifo_push, fifo_nil.
  - rewrite ET. reflexivity.
  - rewrite ET. intros t N. unfold of_thread. destruct t as [|[|t]]; [congruence| |apply complete_nil].
    apply (complete_op [] (OPush nat 7) (LPush nat 7) (RUnit nat)); constructor.
  - assert (EP : forall t, q_pc nat s t = if t =? 0 then CSleep nat KWait else Idle nat).
    { intros t. vm_compute in E. injection E as _ <-. cbn. destruct t as [|[|t]]; reflexivity. }
    intros t (c & r & HS & HC & HP). unfold step in HS. rewrite EP in HS. destruct (t =? 0); destruct c; cbn in *; discriminate.
Qed.
Print Assumptions C22_lost_wakeup_refuted.

(** ** the hypotheses are met *)
(** two producers, one consumer that uses timed and untimed pops; the first timed pop expires empty-handed *)
Definition busy : list (nat * choice nat) :=
  let g t := (t, Go nat) in
  [(0, Call nat (OPopUntil nat)); g 0; g 0; g 0; g 0; g 0;
   (0, Expire nat); g 0; g 0; g 0; g 0; g 0; g 0; g 0; g 0; g 0; g 0;
   (1, Call nat (OPush nat 5)); (2, Call nat (OPush nat 6));
   g 2; g 2; g 2; g 2; g 2; g 1; g 1; g 1; g 1; g 2; g 1; g 1;
   (0, Call nat (OPop nat)); g 0; g 0; g 0; g 0; g 0; g 0; g 0; g 0; g 0;
   (0, Call nat (OPopUntil nat)); g 0; g 0; g 0; g 0; g 0; g 0; g 0; g 0; g 0; g 0; g 0; g 0].
Example busy_runs : exists s, exec nat (q_init nat) busy =
  Some ([(0, ECall nat (OPopUntil nat)); (0, ELin nat (LNone nat)); (0, ERet nat (RNone nat));
         (1, ECall nat (OPush nat 5)); (2, ECall nat (OPush nat 6)); (2, ELin nat (LPush nat 6)); (1, ELin nat (LPush nat 5));
         (2, ERet nat (RUnit nat)); (1, ERet nat (RUnit nat));
         (0, ECall nat (OPop nat)); (0, ELin nat (LPop nat 6)); (0, ERet nat (RVal nat 6));
         (0, ECall nat (OPopUntil nat)); (0, ELin nat (LPop nat 5))], Done nat s).
Proof. eexists. vm_compute. reflexivity. Qed.

(** the situation of C22_timed_pop_gets_element: the notification is lost, the deadline passes, the element is returned *)
Definition late : list (nat * choice nat) :=
  let g t := (t, Go nat) in
  [(0, Call nat (OPopUntil nat)); g 0; g 0; g 0; g 0;
   (1, Call nat (OPush nat 7)); g 1; g 1; g 1; g 1; g 1; g 1;
   g 0; (0, Expire nat); g 0; g 0; g 0; g 0; g 0; g 0; g 0; g 0; g 0; g 0; g 0; g 0; g 0].
Example late_runs : exists s tr1 tr2 l, exec nat (q_init nat) late = Some (tr1 ++ tr2 ++ [(0, ERet nat (RVal nat 7))], Done nat s) /\
  only_consumer 0 (tr1 ++ tr2) /\ of_thread 0 tr1 = [ECall nat (OPopUntil nat)] /\ of_thread 0 tr2 = [ELin nat l] /\ fifo [] (effects tr1) [7].
Proof.
  eexists _, [(0, ECall nat (OPopUntil nat)); (1, ECall nat (OPush nat 7)); (1, ELin nat (LPush nat 7)); (1, ERet nat (RUnit nat))], [(0, ELin nat (LPop nat 7))], _.
  split; [vm_compute; reflexivity|]. split; [|split; [|split]].
  - intros t o IN N. cbn in IN. repeat (destruct IN as [IN|IN]; [try (injection IN as <- <-; congruence || eauto); try discriminate|]); try now elim IN.
    all: try (injection IN as <- <-; eauto).
  - reflexivity.
  - reflexivity.
  - cbn. apply fifo_push, fifo_nil.
Qed.
Example bounded_meets : undisturbed 0 [(0, Go nat); (0, Go nat); (1, Call nat (OPush nat 3))].
Proof. intros u c [E|[E|[E|[]]]]; injection E as <- <-; (split; [discriminate|easy]). Qed.
