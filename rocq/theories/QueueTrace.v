(** The memory accesses of include/ThreadSafeQueue.hpp, step by step, for the model of Queue.v.  No proofs.

    Locations: the members [head] and [tail] (hpp:58, 60) and the two members of every node (hpp:54-57).  The mutexes are 0 (headMutex) and
    1 (tailMutex).  The value a node points to is written before the pointer to it is stored and read after it was loaded (hpp:37, 24, 31).
    Reference counts of std::shared_ptr are atomic and left out; so is the condition variable, whose operations do not race. *)
From Coq Require Import List Bool Arith.
From Verif Require Import Queue Trace.
Import ListNotations.

Inductive qloc := QHead | QTail | QData (a : nat) | QNext (a : nat).
Definition head_mutex : nat := 0.
Definition tail_mutex : nat := 1.

Section QTrace.
Variable V : Type.
Notation qst := (qst V).

(** does the test of the wait loop end in a wait, which releases the mutex?  hpp:76, 84-85 *)
Definition goes_to_sleep (k : ckind) (f : phase) (e : bool) : bool :=
  match k, f with KWait, _ => e | KUntil, PhLoop => e | _, _ => false end.

(** the accesses of one step of thread [t], by what it does next (the lines are those of the program counters in Queue.v) *)
Definition q_accesses (s : qst) (t : nat) (c : choice V) : list (what qloc) :=
  match q_pc V s t with
  | Idle _ => match c with
              | Call _ (OPush _ _) => [Acc Wr (QData (q_fresh V s)); Acc Wr (QNext (q_fresh V s))]   (* 38: make_unique<Node> *)
              | _ => [] end
  | PLock _ _ _ => [Lock tail_mutex]
  | PData _ _ _ => [Acc Rd QTail; Acc Wr (QData (q_tail V s))]
  | PNext _ _ _ => [Acc Rd QTail; Acc Rd (QNext (q_tail V s)); Acc Wr (QNext (q_tail V s))]
  | PTail _ _ _ => [Acc Wr QTail]
  | PUnlock _ => [Unlock tail_mutex]
  | PNotify _ => []
  | CLock _ _ | CRelock _ _ _ => [Lock head_mutex]
  | CTail _ _ _ => [Lock tail_mutex]
  | CRead _ _ _ => [Acc Rd QTail]
  | CRel _ _ _ _ => [Unlock tail_mutex]
  | CCmp _ k f tl => Acc Rd QHead :: (if goes_to_sleep k f (head_is V s tl) then [Unlock head_mutex] else [])
  | CSleep _ _ => []
  | CPop1 _ _ => [Acc Rd QHead; Acc Wr QHead]
  | CPop2 _ _ old => [Acc Rd (QNext old); Acc Wr (QNext old); Acc Rd QHead; Acc Wr QHead]
  | CUnl _ _ _ => [Unlock head_mutex]
  | CData _ old => [Acc Rd (QData old); Acc Wr (QData old); Acc Rd (QNext old); Acc Wr (QNext old)]  (* 24, 31 and ~Node *)
  end.

Fixpoint qtrace (s : qst) (sched : list (nat * choice V)) : trace qloc :=
  match sched with
  | [] => []
  | (t, c) :: r =>
      match step V s t c with
      | Some (_, Done _ s') => map (pair t) (q_accesses s t c) ++ qtrace s' r
      | _ => []
      end
  end.
End QTrace.

(** thread 0 constructs the queue (hpp:16, 58-60) and then starts the threads 1 to [n] *)
Definition q_prefix (n : nat) : trace qloc :=
  [(0, Acc Wr (QData 0)); (0, Acc Wr (QNext 0)); (0, Acc Wr QHead); (0, Acc Rd QHead); (0, Acc Wr QTail)] ++
  map (fun k => (0, Fork (S k))) (seq 0 n).
