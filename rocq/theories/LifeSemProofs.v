From Coq Require Import BinNums List.
From mathcomp Require Import all_ssreflect all_fingroup all_algebra.
From Verif Require Import Criterion Config SeqFlow SeqSpec ParFlow ParSpec Schemes DDCheck DDSpec Qubits QubitsProofs DDSem DDSemProofs2 DDFlow DDFlowProofs ZX ZXSem EndToEnd EndToEndProofs
  LifeSpec LifeProofs LifeSem.
Set Implicit Arguments.
Unset Strict Implicit.
Unset Printing Implicit Defensive.
Import GRing.Theory Num.Theory.
Local Open Scope ring_scope.

Section Dd.
Variables (C : numClosedFieldType) (Lg : finType) (Ph : eqType).
Local Notation circuit := (circuit Ph Lg (gate C Ph)).
Variables (zero : Ph) (c1 c2 : circuit).
Hypotheses (W1 : wf_circuit c1) (W2 : wf_circuit c2) (U1 : unitary_circuit c1) (U2 : unitary_circuit c2).

(** [zx]: the ZX verdicts of the runs in which that checker can take part are true *)
Theorem life_true : exists V1 V2, [/\ realises c1 V1, realises c2 V2 &
  forall (A1 A2 : {set Lg}) (Stim Gen : Type) (used : list (settings Stim Gen)) (m : manager Stim Gen), life used m ->
  (forall x, List.In x used -> about zero c1 c2 A1 A2 used x) ->
  (forall x y, List.In x used -> List.In y used -> uses y KZX ->
     zcrit (e_ancilla x.1) (e_zx x.1) = Equivalent \/ zcrit (e_ancilla x.1) (e_zx x.1) = EquivalentUpToGlobalPhase ->
     true_verdict (A1 :&: A2) V1 V2 (zcrit (e_ancilla x.1) (e_zx x.1))) ->
  definitive (r_eq (lf_res m)) -> true_verdict (A1 :&: A2) V1 V2 (r_eq (lf_res m))].
Proof.
have [V1 [V2 [R1 R2 H]]] := checkers_true zero W1 W2 U1 U2; exists V1, V2; split=> // A1 A2 Stim Gen used m hl ab zx.
apply: (@life_sound _ _ (true_verdict (A1 :&: A2) V1 V2) used m hl) => [x hx ex|x y k v hx hy uy [cv hv] dv].
  by have [E _] := ab x hx; rewrite ex in E.
have [_ [_ [q [s [eps [stim [hq hs eps0 hd fit]]]]]]] := ab x hx; have [_ [[fa fc] _]] := ab y hy.
have [HA HC HS] := H _ _ _ _ _ hq hs eps0 _ _ _ _ hd.
case: k cv hv uy => /=.
- move=> [t [Dt Et]] E _; have EN := E erefl; rewrite EN; apply: (HS t (fit t Dt)).
  by move: Et; rewrite EN; case: (e_sim x.1 t).
- by move=> [ch ->] _ ua; exact: HA (fa ua) ch.
- by move=> -> _ uc; exact: HC (fc uc).
- move=> Ev _ uz; rewrite Ev; apply: (zx x y hx hy uz); rewrite -Ev.
  move: dv; rewrite Ev /zcrit /definitive; case: (e_zx x.1); auto.
  by case: (e_ancilla x.1) => -[|[|[|]]].
Qed.

Theorem life_true_dd : exists V1 V2, [/\ realises c1 V1, realises c2 V2 &
  forall (A1 A2 : {set Lg}) (Stim Gen : Type) (used : list (settings Stim Gen)) (m : manager Stim Gen), life used m ->
  (forall x, List.In x used -> about zero c1 c2 A1 A2 used x /\ without_zx x) ->
  definitive (r_eq (lf_res m)) -> true_verdict (A1 :&: A2) V1 V2 (r_eq (lf_res m))].
Proof.
have [V1 [V2 [R1 R2 H]]] := life_true; exists V1, V2; split=> // A1 A2 Stim Gen used m hl ab; apply: (H A1 A2 _ _ used m hl) => [x /ab [] //|x y _ /ab [_ [z v]] [uz _]].
by exfalso; move: uz; rewrite z v; case.
Qed.
End Dd.

Section Zx.
Variables (C : numClosedFieldType) (n : nat).
Local Notation circuit := (circuit nat_eqType [finType of 'I_n] (gate C nat_eqType)).

Theorem life_true_zx (zero : nat) (c1 c2 : circuit) (g1 g2 : nat -> bool) :
  wf_circuit c1 -> wf_circuit c2 -> unitary_circuit c1 -> unitary_circuit c2 -> full_maps c1 -> full_maps c2 ->
  (forall i : 'I_n, ~~ (g1 i && g2 i)) ->
  exists V1 V2, [/\ realises c1 V1, realises c2 V2 &
  forall (Stim Gen : Type) (tr : bool) (used : list (settings Stim Gen)) (m : manager Stim Gen), life used m ->
  (forall x, List.In x used -> [/\ about zero c1 c2 set0 set0 used x, zx_describes g1 g2 c1 c2 x.1 & e_transformable x.1 = tr]) ->
  definitive (r_eq (lf_res m)) -> true_verdict set0 V1 V2 (r_eq (lf_res m))].
Proof.
move=> W1 W2 U1 U2 F1 F2 ng; have [V1 [V2 [R1 R2 H]]] := life_true zero W1 W2 U1 U2; exists V1, V2; split=> // Stim Gen tr used m hl ab df.
have := H set0 set0 _ _ used m hl; rewrite setI0; apply=> // [x hx|x y hx hy [_ ty] Pos]; first by have [] := ab x hx.
have [_ zd tx] := ab x hx; have [_ _ ty'] := ab y hy.
by apply: (zx_verdict_true W1 W2 U1 U2 F1 F2 ng R1 R2 zd _ Pos); rewrite tx -ty'.
Qed.
End Zx.
