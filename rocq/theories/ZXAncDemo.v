(** A circuit with an ancillary qubit: non-vacuity example for C73. *)
From mathcomp Require Import all_ssreflect all_fingroup all_algebra.
From Verif Require Import Criterion Perm PermSpec PermProofs ZX ZXSpec ZXProofs DDCheck DDSpec Qubits QubitsProofs DDSem ZXSem ZXSemProofs ZXSemProofs2 ZXDemo ZXDemoProofs DDSemProofs ZXAnc ZXAncProofs.
Set Implicit Arguments.
Unset Strict Implicit.
Unset Printing Implicit Defensive.
Import GRing.Theory Num.Theory GroupScope.
Local Open Scope ring_scope.

(** one data qubit, one ancillary: H on the data qubit, against a SWAP with the ancillary followed by H there and exchanged outputs; a single
    wire from wire 0 of circuit 1 to wire 1 of circuit 2 remains *)
Section Demo.
Variable C : numClosedFieldType.
Local Notation Lg := [finType of 'I_(1 + 1)].
Local Notation gate := (gate C nat_eqType).
Local Notation circuit := (circuit nat_eqType Lg gate).
Let c1 : circuit := zqc [:: Had C 0%N] out_id.
Let c2 : circuit := zqc [:: ZSwap C; Had C 1%N] out_swap.
Definition one_wire : diagram C 1 1 [finType of bool * 'I_1] :=
  with_labels (wires_diagram C (1%g : {perm 'I_1}) (fun _ => false)) (fun v => Some (nat_of_bool v.1)).
Let l1 : 'I_1 -> 'I_(1 + 1) := fun _ => lay2 0%N.
Let l2 : 'I_1 -> 'I_(1 + 1) := fun _ => lay2 1%N.

Lemma lsh i : lshift 1 (i : 'I_1) = lay2 0%N :> 'I_(1 + 1).
Proof. by apply: val_inj; rewrite (ord1 i) lay2_0. Qed.
Lemma demo_same V1 V2 : realises c1 V1 -> realises c2 V2 -> V2 = V1.
Proof.
move=> R1 R2; have [[W1 W2 U1 U2] [F1 F2 WD NI]] := demo_wf C.
have [K [_ _ -> H]] := zx_true W1 W2 U1 U2 F1 F2 WD (demo_denotes C) R1 R2 (demo_answer C) (or_introl erefl).
by have [//|_ ->] := H; rewrite ?mul1mx.
Qed.
Lemma demo_V1 V : realises c1 V -> V = gmx (hgate C 0) lay2.
Proof.
move=> [s [S _ ->]]; rewrite /= mul1mx; suff -> : s = 1%g by rewrite Pm_1 mul1mx.
apply/permP => i; rewrite perm1; have : i = lay2 0%N \/ i = lay2 1%N.
  by rewrite lay2_0 lay2_1; case: i => [[|[|]]] // lt'; [left|right]; apply: val_inj.
by case=> ->; [apply: (S 0%N)|apply: (S 1%N)]; rewrite !inE eqxx ?orbT.
Qed.
Lemma demo_returns V : realises c1 V -> returns_ancillaries V.
Proof.
move=> /demo_V1 ->; apply: mxP => x y; rewrite !entry_projR entry_projL.
have [Zy|_] := boolP [forall q in _, ~~ y q]; last by rewrite !mulr0.
rewrite !mulr1 had_entry; case: forallP => [H|_]; last by rewrite mulr0.
suff -> : [forall q in ancillaries 1 1, ~~ x q] by rewrite mul1r.
apply/forallP => q; apply/implyP => Aq; have := H q; have := forallP Zy q; rewrite Aq /=.
have -> /= : q != lay2 0%N by apply/negP => /eqP e; move: Aq; rewrite e inE lay2_0.
by move=> ny /eqP ->.
Qed.
Lemma demo_data : data_wires c1 l1 /\ data_wires c2 l2.
Proof.
split; split; try by move=> i j _; rewrite (ord1 i) (ord1 j).
- by move=> i; exists 0%N, ord0; split=> //; rewrite lsh !inE eqxx.
- by move=> i; exists 1%N, ord0; split=> //; rewrite lsh !inE eqxx orbT.
Qed.
Lemma demo_labelled : wf_labelled l1 l2 one_wire.
Proof.
split; first by exists (fun v => Some (nat_of_ord v.2)); exact: (wires_wf C (1%g : {perm 'I_1}) (fun _ => false)).
by move=> i; rewrite /l1 /l2 lay2_0 lay2_1.
Qed.
Lemma demo_rest : denotes one_wire 1 (remaining l2 c2 *m adj (remaining l1 c1)).
Proof.
have [[W1 W2 U1 U2] [F1 F2 _ _]] := demo_wf C; have [L1 L2] := demo_data.
have [V1 [_ [R1 _]]] := computes_ex 0%N W1; have [V2 [_ [R2 _]]] := computes_ex 0%N W2.
have T1 := demo_returns R1; have T2 := T1; rewrite -(demo_same R1 R2) in T2.
have same := demo_same R1 R2.
have [q1 [s1 [_ _ S1 _ E1]]] := combined_circuit W1 F1 R1; have [q2 [s2 [_ _ S2 _ E2]]] := combined_circuit W2 F2 R2.
have [t1 P1] := data_perm L1 S1; have [t2 P2] := data_perm L2 S2.
have one (t : {perm 'I_1}) : t = 1%g by apply/permP => i; rewrite !ord1.
have UU : unitary (remaining l1 c1) by apply: (unitary_remaining P1); [exact: unitary_wire_op|rewrite -E1].
have -> : remaining l2 c2 = remaining l1 c1.
  have := on_data_remaining c1 P1; have := on_data_remaining c2 P2; rewrite (one t1) (one t2) !Pm_1 !mul1mx => <- <-.
  by rewrite -E1 -E2 same.
split; first exact: normr1.
exists 1; rewrite ?ltr01 // !scale1r (UU : _ *m _ = _).
transitivity (zx_sem (wires_diagram C (1%g : {perm 'I_1}) (fun _ => false))); first by [].
by rewrite wires_plain // Pm_1.
Qed.
Lemma demo_verdict : zx_answer_anc false (ancilla_flag 1 1) false (fun _ => false) (fun _ => false) c1 c2 one_wire 1 = ZVerdict Equivalent.
Proof.
have [[W1 W2 _ _] [F1 F2 _ _]] := demo_wf C.
have [V1 [_ [R1 _]]] := computes_ex 0%N W1; have [V2 [_ [R2 _]]] := computes_ex 0%N W2.
have [r1 [s1 [E1 A1 S1 _ _]]] := combined_circuit W1 F1 R1; have [r2 [s2 [E2 A2 S2 _ _]]] := combined_circuit W2 F2 R2.
apply/(run_positive _ _ _ _ _ _ _ _ _ _ _ _ _ _ _ E1 E2); [by left|split=> //; split; last by rewrite /= eqxx].
split=> // -[|i] /ltP // lt; right; exists 0%N, 1%N, 0%N.
have e1 : s1 (lay2 0%N) = lay2 0%N by apply: (S1 0%N); rewrite !inE eqxx.
have e2 : s2 (lay2 1%N) = lay2 0%N by apply: (S2 1%N); rewrite !inE eqxx orbT.
split; last first.
  by have := A1 (lay2 0%N); have := A2 (lay2 1%N); rewrite e1 e2 lay2_0 lay2_1.
have E : wire_view one_wire (ord0 : 'I_1) = (ESimple, Some 0%N, Some 1%N).
  rewrite (@wire_view_labelled _ 1 _ one_wire _ (wires_wf C (1%g : {perm 'I_1}) (fun _ => false)) ord0 ord0 ord0) //.
  by left; rewrite /= perm1.
rewrite /view /z_wire; case: insubP => [j _ _|/negP]; last by case.
by rewrite (ord1 j) E.
Qed.
End Demo.
