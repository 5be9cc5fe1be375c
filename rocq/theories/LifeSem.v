(** Specification vocabulary for the end-to-end part of C85: when all runs of a manager's life are about the same two circuits. No proofs.
    Sources: as in LifeSpec.v and DDFlow.v. *)
From Coq Require Import BinNums.
From mathcomp Require Import all_ssreflect all_fingroup all_algebra.
From Verif Require Import Criterion Config SeqFlow SeqSpec Schemes DDCheck DDSpec Qubits DDSem DDFlow ZX ZXSem EndToEnd LifeSpec.
Set Implicit Arguments.
Unset Strict Implicit.
Unset Printing Implicit Defensive.
Import GRing.Theory Num.Theory.
Local Open Scope ring_scope.

Section Dd.
Variables (C : numClosedFieldType) (Lg : finType) (Ph : eqType).
Local Notation vec := (vec C Lg).
Local Notation circuit := (circuit Ph Lg (gate C Ph)).

(** the runs with settings [x] are about the circuits [c1], [c2] (not empty): the verdicts of the decision-diagram checkers are those of
    uninterrupted runs on the circuits, with some package, application schemes, fidelity threshold and stimuli; these may differ from run to
    run, as the settings do. Stimuli that the generator can yield in one of the runs [used] are unit vectors that are zero on the common
    ancillaries *)
Definition about (zero : Ph) (c1 c2 : circuit) (A1 A2 : {set Lg}) (Stim Gen : Type) (used : list (settings Stim Gen)) (x : settings Stim Gen) : Prop :=
  e_empty x.1 = false /\ ancillaries_fit x.2 c1 c2 A1 A2 /\
  exists (q : package C Lg Ph) (s : schemes) (eps : C) (stim : Stim -> vec),
    [/\ exact_package q, good_schemes q c1 c2 s, 0 < eps, describes q s zero c1 c2 A1 A2 eps stim x.1 & forall y, drawable_in used y -> fits (A1 :&: A2) (stim y)].
(** no ZX checker in this run: switched off, and the circuits have no symbolic parameters *)
Definition without_zx (Stim Gen : Type) (x : settings Stim Gen) : Prop := runZXChecker (exec x.2) = false /\ e_varfree x.1 = true.
End Dd.
