(** All four checkers together: when the recorded ZX verdict belongs to a pair of circuits. Definitions only. *)
From mathcomp Require Import all_ssreflect all_fingroup all_algebra.
From Verif Require Import Criterion Config SeqFlow SeqSpec Schemes DDCheck DDSpec Qubits DDSem DDFlow Perm ZX ZXSem.
Set Implicit Arguments.
Unset Strict Implicit.
Unset Printing Implicit Defensive.
Import GRing.Theory Num.Theory.
Local Open Scope ring_scope.

Section Def.
Variables (C : numClosedFieldType) (n : nat).
Local Notation Lg := [finType of 'I_n].
Local Notation gate := (gate C nat_eqType).
Local Notation circuit := (circuit nat_eqType Lg gate).

(** the ZX verdict recorded in the flow's environment [e] (SeqFlow.v, e_zx) is what ZXChecker::run (ZXChecker.cpp:55-115, ZX.v) answers
    without interruption, for some reduced diagram that stands for D2 D1^+. Simplification: a diagram accepted as equivalent contains
    nothing but the ends of the wires (an isolated spider is a scalar, which mqt-core absorbs into the global phase) *)
Definition zx_describes (g1 g2 : nat -> bool) (c1 c2 : circuit) (Stim Gen : Type) (e : env Stim Gen) : Prop :=
  e_transformable e = true ->
  exists m (V : finType) (D : diagram C n m V) (ph : C),
    [/\ wf_diagram D, denotes D ph (wire_op c2 *m adj (wire_op c1)),
        zcrit (e_ancilla e) (e_zx e) = Equivalent \/ zcrit (e_ancilla e) (e_zx e) = EquivalentUpToGlobalPhase -> no_isolated D &
        zx_answer (e_ndebug e) (e_ancilla e) false g1 g2 c1 c2 D ph = ZVerdict (zcrit (e_ancilla e) (e_zx e))].
End Def.
