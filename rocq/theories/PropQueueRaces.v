(** C79: memory accesses of the queue between the workers and the main thread.
    Models: Queue.v (the steps), QueueTrace.v (their accesses).  Vocabulary: Trace.v (happens-before and data races as in the C++ standard).
    [q_prefix n]: thread 0 constructs the queue and starts the threads 1 to [n]. *)
From Coq Require Import List Bool Arith.
From Verif Require Import Queue QueueSpec Trace QueueTrace QueueTraceProofs4.
Import ListNotations.

(** whatever operations any number of threads call, in whatever order, no two accesses to the queue race: not those to [head], [tail] or the
    members of the nodes, including the construction and the destruction of the nodes *)
Theorem C79_queue_race_free {V} n (sched : list (nat * choice V)) l o :
  exec V (q_init V) sched = Some (l, o) -> Forall (fun tc => fst tc <= n) sched -> race_free (q_prefix n ++ qtrace V (q_init V) sched).
Proof. exact (queue_race_free n sched l o). Qed.
Print Assumptions C79_queue_race_free.

(** the queue publishes: everything a thread did until it stored an element (position [i]) happens before what another thread does from the
    moment it reads that element (position [j]) *)
Theorem C79_queue_publishes {V} n (sched : list (nat * choice V)) l o a i j k t u w :
  exec V (q_init V) sched = Some (l, o) -> Forall (fun tc => fst tc <= n) sched ->
  let tr := q_prefix n ++ qtrace V (q_init V) sched in
  k <= i -> i < j -> nth_error tr k = Some (t, w) -> nth_error tr i = Some (t, Acc Wr (QData a)) -> nth_error tr j = Some (u, Acc Rd (QData a)) -> hb tr k j.
Proof. exact (queue_publishes n sched l o a i j k t u w). Qed.
Print Assumptions C79_queue_publishes.

(** *** a run of one producer (thread 1) and one consumer (thread 0): the consumer waits for the element *)
Definition go (t : nat) (k : nat) : list (nat * choice nat) := repeat (t, Go nat) k.
Definition demo_sched : list (nat * choice nat) :=
  [(0, Call nat (OPop nat))] ++ go 0 3 ++ [(1, Call nat (OPush nat 7))] ++ go 0 2 ++ go 1 5 ++ [(1, Notify nat 0)] ++ go 0 9.
Example C79_example :
  (exists l s, exec nat (q_init nat) demo_sched = Some (l, Done nat s) /\ In (0, ERet nat (RVal nat 7)) l) /\
  Forall (fun tc => fst tc <= 1) demo_sched /\
  let tr := q_prefix 1 ++ qtrace nat (q_init nat) demo_sched in
  nth_error tr 9 = Some (1, Acc Wr (QData 1)) /\ nth_error tr 16 = Some (1, Acc Wr (QData 0)) /\ nth_error tr 34 = Some (0, Acc Rd (QData 0)) /\ hb tr 9 34.
Proof.
  split; [|split; [|split; [|split; [|split]]]].
  - eexists _, _. split; [vm_compute; reflexivity|]. vm_compute. tauto.
  - repeat constructor.
  - vm_compute. reflexivity.
  - vm_compute. reflexivity.
  - vm_compute. reflexivity.
  - assert (HE : exists l o, exec nat (q_init nat) demo_sched = Some (l, o)) by (eexists _, _; vm_compute; reflexivity). destruct HE as (l & o & HE).
    eapply (C79_queue_publishes 1 demo_sched l o 0 16 34 9 1 0); [exact HE|repeat constructor|apply Nat.leb_le; reflexivity|apply Nat.ltb_lt; reflexivity|vm_compute; reflexivity..].
Qed.
