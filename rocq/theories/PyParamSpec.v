(** Specification vocabulary for the flow for parameterised circuits. No proofs. *)
From Coq Require Import List Bool QArith.
From Verif Require Import Criterion PyParam.
Import ListNotations.

(** all instantiated checks in the order in which the flow makes them: zero, additional rounds, random *)
Definition all_checks (e : penv) (n : nat) : list presult := zero e :: map (phase e) (seq 0 n) ++ [random e].
Definition prefix {T} (l l' : list T) : Prop := exists r, l' = l ++ r.
Definition refutes (r : presult) : Prop := r_eq r = NotEquivalent.
Definition total (f : presult -> Q) (l : list presult) : Q := fold_right (fun r acc => f r + acc) 0 l.

(** ** linear systems over Q *)
Fixpoint dot (a : list Q) (x : nat -> Q) (i : nat) : Q := match a with [] => 0 | c :: r => c * x i + dot r x (S i) end.
(** x solves the rows of [m] for the right-hand sides [b] *)
Definition solves (m : list (list Q)) (b : list Q) (x : nat -> Q) : Prop := Forall2 (fun row v => dot row x 0 == v) m b.
(** value of an affine expression: constant plus the sum over the parameters below n *)
Definition affine_below (n : nat) (x : pexpr) : Prop :=
  exists (c : Q) (k : nat -> Q), (forall i, ~ In i (x_params x) -> k i == 0) /\ (forall i, In i (x_params x) -> (i < n)%nat) /\
    forall a, x_value x a == c + fold_right (fun i acc => k i * a i + acc) 0 (seq 0 n).
