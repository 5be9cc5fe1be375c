(** What a user expects of a concurrent FIFO queue, without reference to nodes, mutexes or program counters. *)
From Coq Require Import List Bool Arith.
From Verif Require Import Queue.
Import ListNotations.

Section Spec.
Context {V : Type}.

(** a sequential queue: [fifo q ls q'] - the operations [ls], executed one after the other on the queue [q], give [q'] *)
Inductive fifo : list V -> list (lin V) -> list V -> Prop :=
| fifo_nil q : fifo q [] q
| fifo_push q v ls q' : fifo (q ++ [v]) ls q' -> fifo q (LPush V v :: ls) q'
| fifo_pop q v ls q' : fifo q ls q' -> fifo (v :: q) (LPop V v :: ls) q'
| fifo_none ls q' : fifo [] ls q' -> fifo [] (LNone V :: ls) q'
| fifo_empty ls q' : fifo [] ls q' -> fifo [] (LTest V true :: ls) q'
| fifo_nonempty v q ls q' : fifo (v :: q) ls q' -> fifo (v :: q) (LTest V false :: ls) q'.

(** operation, effect and result belong together *)
Inductive agrees : opn V -> lin V -> res V -> Prop :=
| agrees_push v : agrees (OPush V v) (LPush V v) (RUnit V)
| agrees_pop v : agrees (OPop V) (LPop V v) (RVal V v)
| agrees_until v : agrees (OPopUntil V) (LPop V v) (RVal V v)
| agrees_none : agrees (OPopUntil V) (LNone V) (RNone V)
| agrees_test b : agrees (OEmpty V) (LTest V b) (RBool V b).

(** what one thread does: complete operations, each of which takes effect exactly once, after its call and before its return *)
Inductive complete : list (ev V) -> Prop :=
| complete_nil : complete []
| complete_op es o l r : complete es -> agrees o l r -> complete (es ++ [ECall V o; ELin V l; ERet V r]).
(** ... and possibly one that is under way *)
Inductive thread_history : list (ev V) -> Prop :=
| history_idle es : complete es -> thread_history es
| history_called es o : complete es -> thread_history (es ++ [ECall V o])
| history_effect es o l r : complete es -> agrees o l r -> thread_history (es ++ [ECall V o; ELin V l]).

Definition of_thread (t : nat) (tr : list (nat * ev V)) : list (ev V) := map snd (filter (fun e => fst e =? t) tr).

(** the effects of a history in the order in which they happened *)
Definition effects (tr : list (nat * ev V)) : list (lin V) :=
  flat_map (fun e => match snd e with ELin _ l => [l] | _ => [] end) tr.

(** a history is linearisable with contents [q] left in the queue *)
Definition linearised (tr : list (nat * ev V)) (q : list V) : Prop :=
  fifo [] (effects tr) q /\ forall t, thread_history (of_thread t tr).

Definition pushed (tr : list (nat * ev V)) : list V :=
  flat_map (fun e => match snd e with ELin _ (LPush _ v) => [v] | _ => [] end) tr.
Definition returned (tr : list (nat * ev V)) : list V :=
  flat_map (fun e => match snd e with ERet _ (RVal _ v) => [v] | _ => [] end) tr.
Definition prefix (l l' : list V) : Prop := exists r, l' = l ++ r.

(** only thread [c] takes elements out *)
Definition only_consumer (c : nat) (tr : list (nat * ev V)) : Prop :=
  forall t o, In (t, ECall V o) tr -> t <> c -> exists v, o = OPush V v.

(** thread [t] can continue an operation that is under way, without a spurious wake-up *)
Definition can_move (s : qst V) (t : nat) : Prop :=
  exists c r, step V s t c = Some r /\ is_call V c = false /\ is_spurious V c = false.

(** the schedule does not start an operation of [t] and does not wake it up *)
Definition undisturbed (t : nat) (sched : list (nat * choice V)) : Prop :=
  forall u c, In (u, c) sched -> c <> Notify V t /\ (u = t -> match c with Go _ | Notify _ _ => True | _ => False end).
Definition steps_of (t : nat) (sched : list (nat * choice V)) : nat := length (filter (fun e => fst e =? t) sched).
End Spec.
