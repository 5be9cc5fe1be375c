(** Vocabulary for C88 on state vectors and operators. Definitions only. *)
From mathcomp Require Import all_ssreflect all_fingroup all_algebra.
From Verif Require Import Qubits DDSem.
Set Implicit Arguments.
Unset Strict Implicit.
Unset Printing Implicit Defensive.
Import GRing.Theory Num.Theory.
Local Open Scope ring_scope.

Section E.
Variables (C : numClosedFieldType) (n : nat).
Local Notation Lg := [finType of 'I_n].
Local Notation vec := (vec C Lg).
Local Notation mat := (mat C Lg).
(** two unit vectors are close: their squared distance is below twice the threshold, or their fidelity differs from 1 by less than the threshold *)
Definition close (eps : C) (u v : vec) : Prop := inner (u - v) (u - v) < eps *+ 2 \/ `| `|inner u v| ^+ 2 - 1| < eps.
(** every basis state is mapped to a basis state: circuits of X, CX, Toffoli, SWAP gates *)
Definition classical (V : mat) : Prop := exists f : basis Lg -> basis Lg, forall x y, entry V x y = (x == f y)%:R.
(** diagonal in the computational basis *)
Definition diagonal (D : mat) : Prop := forall x y, x != y -> entry D x y = 0.
(** every basis state is mapped to a multiple of a basis state: the gates above together with Z, S, T, phase and RZ gates *)
Definition monomial (V : mat) : Prop := exists f : basis Lg -> basis Lg, forall x y, x != f y -> entry V x y = 0.
End E.
