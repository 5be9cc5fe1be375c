(** Model of include/ThreadSafeQueue.hpp: the two-mutex queue between the workers and the main thread of the parallel flow.
    No proofs in this file.

    Threads are natural numbers; every thread may call any operation any number of times. One step of the model is one access to
    shared memory (a mutex operation, a load or a store of a field); which thread moves, which waiting thread a notification
    reaches and whether a wait ends spuriously or by its deadline is decided by an arbitrary schedule. Memory is sequentially
    consistent. Node addresses are natural numbers that are never reused (a node that was freed is [None] in the heap: using it
    is a [Fault]). Not modelled: allocation failure, the value type's move/copy operations, clocks (a deadline passes
    whenever the schedule says so). *)
From Coq Require Import List Bool Arith.
Import ListNotations.

Section Queue.
Variable V : Type.

(** struct Node, ThreadSafeQueue.hpp:54-57 *)
Record node := mkNode { n_data : option V; n_next : option nat }.

(** the public operations: push 36-46, waitAndPop 22-25, waitAndPopUntil 27-34, empty 47-50 *)
Inductive opn := OPush (v : V) | OPop | OPopUntil | OEmpty.
(** what they return (waitAndPopUntil: nullptr is [RNone]) *)
Inductive res := RUnit | RVal (v : V) | RNone | RBool (b : bool).

(** the three users of the head mutex *)
Inductive ckind := KWait | KUntil | KEmpty.
(** which evaluation of [head.get() != getTail()]: the wait loop's predicate (76, 84), the predicate after the deadline passed
    (std::condition_variable::wait_until), the test of line 97 / line 50 *)
Inductive phase := PhLoop | PhExpired | PhFinal.

(** program counters: what a thread does next *)
Inductive pc :=
| Idle
| PLock (a : nat) (v : V)    (* 40: lock tailMutex; a = the new node p *)
| PData (a : nat) (v : V)    (* 41: tail->data = data *)
| PNext (a : nat) (v : V)    (* 42-43: tail->next = std::move(p) *)
| PTail (a : nat) (v : V)    (* 44: tail = newTail *)
| PUnlock                    (* 45: unlock tailMutex *)
| PNotify                    (* 46: dataCond.notify_one() *)
| CLock (k : ckind)          (* 75, 83, 48: lock headMutex *)
| CTail (k : ckind) (f : phase)              (* 64: getTail locks tailMutex *)
| CRead (k : ckind) (f : phase)              (* 65: ... reads tail *)
| CRel (k : ckind) (f : phase) (tl : nat)    (* 65: ... unlocks *)
| CCmp (k : ckind) (f : phase) (tl : nat)    (* head.get() == tail? *)
| CSleep (k : ckind)         (* blocked in dataCond.wait / wait_until, headMutex released *)
| CRelock (k : ckind) (f : phase)            (* woken up: lock headMutex again *)
| CPop1 (k : ckind)          (* 69: oldHead = std::move(head) *)
| CPop2 (k : ckind) (old : nat)              (* 70: head = std::move(oldHead->next) *)
| CUnl (k : ckind) (r : nat + res)           (* headLock is destroyed; inl: the popped node, inr: the answer *)
| CData (old : nat).         (* 24, 31: oldHead->data is copied, the node is freed *)

Record qst := mkQ {
  q_heap : nat -> option node;
  q_fresh : nat;
  q_head : option nat;      (* 58: unique_ptr head; None while popHead has moved it out *)
  q_tail : nat;             (* 60 *)
  q_hm : option nat;        (* owner of headMutex *)
  q_tm : option nat;        (* owner of tailMutex *)
  q_wait : list nat;        (* threads blocked on dataCond *)
  q_pc : nat -> pc }.

(** events: calls and returns are what a client sees; [ELin] marks the instant at which an operation takes effect *)
Inductive lin := LPush (v : V) | LPop (v : V) | LNone | LTest (b : bool).
Inductive ev := ECall (o : opn) | ELin (l : lin) | ERet (r : res).

(** constructor, ThreadSafeQueue.hpp:16, 58-62: one dummy node *)
Definition q_init : qst :=
  mkQ (fun a => if a =? 0 then Some (mkNode None None) else None) 1 (Some 0) 0 None None [] (fun _ => Idle).

Definition upd {A} (f : nat -> A) (k : nat) (x : A) : nat -> A := fun i => if i =? k then x else f i.

Definition goto (s : qst) (t : nat) (p : pc) : qst :=
  mkQ (q_heap s) (q_fresh s) (q_head s) (q_tail s) (q_hm s) (q_tm s) (q_wait s) (upd (q_pc s) t p).
Definition set_heap (s : qst) (a : nat) (n : option node) : qst :=
  mkQ (upd (q_heap s) a n) (q_fresh s) (q_head s) (q_tail s) (q_hm s) (q_tm s) (q_wait s) (q_pc s).
Definition set_head (s : qst) (h : option nat) : qst :=
  mkQ (q_heap s) (q_fresh s) h (q_tail s) (q_hm s) (q_tm s) (q_wait s) (q_pc s).
Definition set_tail (s : qst) (a : nat) : qst :=
  mkQ (q_heap s) (q_fresh s) (q_head s) a (q_hm s) (q_tm s) (q_wait s) (q_pc s).
Definition set_hm (s : qst) (m : option nat) : qst :=
  mkQ (q_heap s) (q_fresh s) (q_head s) (q_tail s) m (q_tm s) (q_wait s) (q_pc s).
Definition set_tm (s : qst) (m : option nat) : qst :=
  mkQ (q_heap s) (q_fresh s) (q_head s) (q_tail s) (q_hm s) m (q_wait s) (q_pc s).
Definition set_wait (s : qst) (w : list nat) : qst :=
  mkQ (q_heap s) (q_fresh s) (q_head s) (q_tail s) (q_hm s) (q_tm s) w (q_pc s).
(** std::make_unique<Node>() *)
Definition alloc (s : qst) : qst :=
  mkQ (upd (q_heap s) (q_fresh s) (Some (mkNode None None))) (S (q_fresh s)) (q_head s) (q_tail s) (q_hm s) (q_tm s) (q_wait s) (q_pc s).

(** what the schedule decides *)
Inductive choice :=
| Go                  (* the next step of an operation under way *)
| Call (o : opn)      (* an idle thread calls an operation *)
| Notify (w : nat)    (* notify_one reaches the waiting thread w *)
| Spurious            (* a wait ends for no reason *)
| Expire.             (* the deadline of a timed wait passes *)

Inductive outcome := Done (s : qst) | Fault.

Definition ok (l : list ev) (s : qst) : option (list ev * outcome) := Some (l, Done s).
Definition fault : option (list ev * outcome) := Some ([], Fault).

Definition is_none {A} (o : option A) : bool := match o with None => true | _ => false end.

(** push, ThreadSafeQueue.hpp:36-47; lines 37-38 allocate when the operation is called *)
Definition step_push (s : qst) (t : nat) (p : pc) (c : choice) : option (list ev * outcome) :=
  match p, c with
  | PLock a v, Go => if is_none (q_tm s) then ok [] (goto (set_tm s (Some t)) t (PData a v)) else None
  | PData a v, Go =>
      match q_heap s (q_tail s) with
      | Some n => ok [] (goto (set_heap s (q_tail s) (Some (mkNode (Some v) (n_next n)))) t (PNext a v))
      | None => fault end
  | PNext a v, Go =>
      match q_heap s (q_tail s) with
      | Some n => ok [] (goto (set_heap s (q_tail s) (Some (mkNode (n_data n) (Some a)))) t (PTail a v))
      | None => fault end
  | PTail a v, Go => ok [ELin (LPush v)] (goto (set_tail s a) t PUnlock)
  | PUnlock, Go => ok [] (goto (set_tm s None) t PNotify)
  | PNotify, Go => match q_wait s with [] => ok [ERet RUnit] (goto s t Idle) | _ => None end
  | PNotify, Notify w =>
      if existsb (Nat.eqb w) (q_wait s)
      then match q_pc s w with
           | CSleep k => ok [ERet RUnit] (goto (goto (set_wait s (remove Nat.eq_dec w (q_wait s))) w (CRelock k PhLoop)) t Idle)
           | _ => None end
      else None
  | _, _ => None
  end.

(** the test [head.get() == getTail()] has been evaluated to [e] under headMutex: what comes next.
    Untimed (73-78, 90-93): the wait loop; timed (80-86, 95-101): std::condition_variable::wait_until with a predicate is
    [while (!pred()) if (wait_until(lock, tp) == timeout) return pred(); return true;]
    and its answer is ignored, line 97 tests again; empty (48-51) *)
Definition after_test (s : qst) (t : nat) (k : ckind) (f : phase) (e : bool) : option (list ev * outcome) :=
  match k, f with
  | KEmpty, _ => ok [] (goto s t (CUnl k (inr (RBool e))))
  | KWait, _ => if e then ok [] (goto (set_hm (set_wait s (t :: q_wait s)) None) t (CSleep k)) else ok [] (goto s t (CPop1 k))
  | KUntil, PhLoop => if e then ok [] (goto (set_hm (set_wait s (t :: q_wait s)) None) t (CSleep k)) else ok [] (goto s t (CTail k PhFinal))
  | KUntil, PhExpired => ok [] (goto s t (CTail k PhFinal))
  | KUntil, PhFinal => if e then ok [] (goto s t (CUnl k (inr RNone))) else ok [] (goto s t (CPop1 k))
  end.

(** the instant at which an operation that finds the queue empty takes effect: the load of [tail] in the final test *)
Definition read_event (k : ckind) (f : phase) (e : bool) : list ev :=
  match k, f with
  | KEmpty, _ => [ELin (LTest e)]
  | KUntil, PhFinal => if e then [ELin LNone] else []
  | _, _ => []
  end.

Definition head_is (s : qst) (tl : nat) : bool := match q_head s with Some h => h =? tl | None => false end.

(** waitAndPop, waitAndPopUntil, empty, getTail, popHead: ThreadSafeQueue.hpp:22-34, 48-51, 64-101 *)
Definition step_cons (s : qst) (t : nat) (p : pc) (c : choice) : option (list ev * outcome) :=
  match p, c with
  | CLock k, Go =>
      if is_none (q_hm s) then ok [] (goto (set_hm s (Some t)) t (CTail k (match k with KEmpty => PhFinal | _ => PhLoop end))) else None
  | CTail k f, Go => if is_none (q_tm s) then ok [] (goto (set_tm s (Some t)) t (CRead k f)) else None
  | CRead k f, Go => ok (read_event k f (head_is s (q_tail s))) (goto s t (CRel k f (q_tail s)))
  | CRel k f tl, Go => ok [] (goto (set_tm s None) t (CCmp k f tl))
  | CCmp k f tl, Go => after_test s t k f (head_is s tl)
  | CSleep k, Spurious => ok [] (goto (set_wait s (remove Nat.eq_dec t (q_wait s))) t (CRelock k PhLoop))
  | CSleep KUntil, Expire => ok [] (goto (set_wait s (remove Nat.eq_dec t (q_wait s))) t (CRelock KUntil PhExpired))
  | CRelock k f, Go => if is_none (q_hm s) then ok [] (goto (set_hm s (Some t)) t (CTail k f)) else None
  | CPop1 k, Go =>
      match q_head s with
      | Some h => ok [] (goto (set_head s None) t (CPop2 k h))
      | None => fault end
  | CPop2 k old, Go =>
      match q_heap s old with
      | Some n =>
          (* the element taken is the data of the old head (read at line 24 / 31); moving [next] out empties it *)
          ok (match n_data n with Some v => [ELin (LPop v)] | None => [] end)
             (goto (set_heap (set_head s (n_next n)) old (Some (mkNode (n_data n) None))) t (CUnl k (inl old)))
      | None => fault end
  | CUnl k (inl old), Go => ok [] (goto (set_hm s None) t (CData old))
  | CUnl k (inr r), Go => ok [ERet r] (goto (set_hm s None) t Idle)
  | CData old, Go =>
      match q_heap s old with
      | Some n => ok [ERet (match n_data n with Some v => RVal v | None => RNone end)] (goto (set_heap s old None) t Idle)
      | None => fault end
  | _, _ => None
  end.

(** one step of thread [t]; None: the thread cannot take that step now *)
Definition step (s : qst) (t : nat) (c : choice) : option (list ev * outcome) :=
  match q_pc s t with
  | Idle =>
      match c with
      | Call (OPush v) => ok [ECall (OPush v)] (goto (alloc s) t (PLock (q_fresh s) v))
      | Call OPop => ok [ECall OPop] (goto s t (CLock KWait))
      | Call OPopUntil => ok [ECall OPopUntil] (goto s t (CLock KUntil))
      | Call OEmpty => ok [ECall OEmpty] (goto s t (CLock KEmpty))
      | _ => None
      end
  | p => match step_push s t p c with Some r => Some r | None => step_cons s t p c end
  end.

(** executions: the events with the thread they belong to, oldest first *)
Fixpoint exec (s : qst) (sched : list (nat * choice)) : option (list (nat * ev) * outcome) :=
  match sched with
  | [] => Some ([], Done s)
  | (t, c) :: r =>
      match step s t c with
      | None => None
      | Some (l, Fault) => Some (map (pair t) l, Fault)
      | Some (l, Done s') =>
          match exec s' r with None => None | Some (l', o) => Some (map (pair t) l ++ l', o) end
      end
  end.

Definition is_spurious (c : choice) : bool := match c with Spurious => true | _ => false end.
Definition is_call (c : choice) : bool := match c with Call _ => true | _ => false end.
End Queue.
