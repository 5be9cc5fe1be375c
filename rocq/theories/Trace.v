(** Specification vocabulary: events of concurrent threads, happens-before and data races in the sense of the C++ memory model.
    Nothing here is about QCEC; no proofs.

    A trace lists the events of all threads in the order in which they took place (ISO C++ [intro.races]):
    - events of one thread are ordered by their order in the trace;
    - starting a thread (std::thread, std::async) happens before everything the thread does;
    - everything a thread does happens before the call that waits for it (std::thread::join, std::future::get, and the destructor of a
      std::future obtained from std::async) returns; so does starting that thread;
    - releasing a mutex happens before every later acquisition of the same mutex.
    Relaxed atomic operations order nothing. *)
From Coq Require Import List Bool Arith.
Import ListNotations.

Inductive access := Rd | Wr | AtomicRd | AtomicWr.
(** what a thread does: access a location, start a thread, wait for a thread, acquire or release a mutex *)
Inductive what (L : Type) := Acc (a : access) (l : L) | Fork (t : nat) | Join (t : nat) | Lock (m : nat) | Unlock (m : nat).
Arguments Acc {L}. Arguments Fork {L}. Arguments Join {L}. Arguments Lock {L}. Arguments Unlock {L}.
(** an event: the thread and what it does *)
Notation event L := (nat * what L)%type.
Notation trace L := (list (nat * what L)).

Definition writes (a : access) : bool := match a with Wr | AtomicWr => true | _ => false end.
Definition atomic (a : access) : bool := match a with AtomicRd | AtomicWr => true | _ => false end.
(** two accesses to the same location conflict: at least one writes, and not both are atomic *)
Definition conflicting (a b : access) : Prop := (writes a || writes b) && negb (atomic a && atomic b) = true.

Section HB.
Context {L : Type}.
Implicit Types (tr : trace L).

(** the event at position [i] happens before the event at position [j] *)
Inductive hb tr : nat -> nat -> Prop :=
| hb_program i j t a b : i < j -> nth_error tr i = Some (t, a) -> nth_error tr j = Some (t, b) -> hb tr i j
| hb_start i j t u b : i < j -> nth_error tr i = Some (t, Fork u) -> nth_error tr j = Some (u, b) -> hb tr i j
| hb_wait i j t u a : i < j -> nth_error tr i = Some (u, a) -> nth_error tr j = Some (t, Join u) -> hb tr i j
| hb_start_wait i j t u v : i < j -> nth_error tr i = Some (t, Fork v) -> nth_error tr j = Some (u, Join v) -> hb tr i j
| hb_mutex i j t u m : i < j -> nth_error tr i = Some (t, Unlock m) -> nth_error tr j = Some (u, Lock m) -> hb tr i j
| hb_trans i j k : hb tr i j -> hb tr j k -> hb tr i k.

(** the events at positions [i < j] are a data race: different threads, conflicting accesses to one location, not ordered *)
Definition race_on tr (l : L) (i j : nat) : Prop :=
  i < j /\ exists t u a b, nth_error tr i = Some (t, Acc a l) /\ nth_error tr j = Some (u, Acc b l) /\
    t <> u /\ conflicting a b /\ ~ hb tr i j.
Definition race_free tr : Prop := forall l i j, ~ race_on tr l i j.
Definition race_free_on tr (l : L) : Prop := forall i j, ~ race_on tr l i j.

(** *** the same order, computed: [known st t p] says that position [p] happens before the next event of thread [t] *)
Record clocks := mkClocks { ck_len : nat; known : nat -> nat -> bool; released : nat -> nat -> bool }.
Definition ck_init : clocks := mkClocks 0 (fun _ _ => false) (fun _ _ => false).
Definition ck_step (c : clocks) (e : event L) : clocks :=
  let '(t, w) := e in
  let n := ck_len c in
  let mine p := known c t p || (p =? n) ||
    match w with Join u => known c u p | Lock m => released c m p | _ => false end in
  mkClocks (S n)
    (fun u p => if u =? t then mine p
                else known c u p || match w with Fork v => (v =? u) && mine p | _ => false end)
    (fun m p => released c m p || match w with Unlock m' => (m' =? m) && mine p | _ => false end).
Definition clk tr : clocks := fold_left ck_step tr ck_init.
End HB.
