(** C55: what an equivalence reported by the ZX checker means for the circuits. *)
From mathcomp Require Import all_ssreflect all_fingroup all_algebra.
From Verif Require Import Criterion Perm PermSpec ZX ZXSpec DDCheck DDSpec Qubits QubitsProofs DDSem ZXSem ZXSemProofs2 ZXDemo ZXDemoProofs DDSemProofs ZXSpider.
Set Implicit Arguments.
Unset Strict Implicit.
Unset Printing Implicit Defensive.
Import GRing.Theory Num.Theory.
Local Open Scope ring_scope.

Section S.
Variables (C : numClosedFieldType) (n : nat).
Local Notation Lg := [finType of 'I_n].
Local Notation gate := (gate C nat_eqType).
Local Notation circuit := (circuit nat_eqType Lg gate).
Local Notation mat := (mat C Lg).

(** circuits without ancillaries and garbage, with complete permutations; the reduced diagram stands for D2 D1^+ (what mqt-core's
    rewriting must preserve). An equivalence up to global phase is one; an equivalence is an equality *)
Theorem C55_equivalence_true : forall m (V : finType) (D : diagram C n m V) (ph : C) nd anc done (g1 g2 : nat -> bool) (c1 c2 : circuit) (V1 V2 : mat),
  wf_circuit c1 -> wf_circuit c2 -> unitary_circuit c1 -> unitary_circuit c2 -> full_maps c1 -> full_maps c2 ->
  wf_diagram D -> no_isolated D -> denotes D ph (wire_op c2 *m adj (wire_op c1)) -> realises c1 V1 -> realises c2 V2 ->
  (forall i : 'I_n, ~~ (g1 i && g2 i)) ->
  (zx_answer nd anc done g1 g2 c1 c2 D ph = ZVerdict Equivalent -> V2 = V1) /\
  (zx_answer nd anc done g1 g2 c1 c2 D ph = ZVerdict EquivalentUpToGlobalPhase -> exists2 w : C, `|w| = 1 & V2 = w *: V1).
Proof.
move=> m V D ph nd anc done g1 g2 c1 c2 V1 V2 W1 W2 U1 U2 F1 F2 WD NI Dn R1 R2 ng; split=> E.
- have [K [_ _ -> /(_ ng) [_ H]]] := zx_true W1 W2 U1 U2 F1 F2 WD Dn R1 R2 E (or_introl erefl); by rewrite H // mul1mx.
- have [K [_ _ -> /(_ ng) [[w w1 ->] _]]] := zx_true W1 W2 U1 U2 F1 F2 WD Dn R1 R2 E (or_intror erefl).
  by exists w => //; rewrite -scalemxAl mul1mx.
Qed.
(** with garbage: the operators differ at most by an operator on the outputs of those wires whose index is garbage in both circuits *)
Theorem C55_garbage_difference : forall m (V : finType) (D : diagram C n m V) (ph : C) nd anc done (g1 g2 : nat -> bool) (c1 c2 : circuit) (V1 V2 : mat) v,
  wf_circuit c1 -> wf_circuit c2 -> unitary_circuit c1 -> unitary_circuit c2 -> full_maps c1 -> full_maps c2 ->
  wf_diagram D -> denotes D ph (wire_op c2 *m adj (wire_op c1)) -> realises c1 V1 -> realises c2 V2 ->
  zx_answer nd anc done g1 g2 c1 c2 D ph = ZVerdict v -> v = Equivalent \/ v = EquivalentUpToGlobalPhase ->
  exists K : mat, [/\ unitary K, acts_only_on (skipped_outputs g1 g2 c1) K & V2 = K *m V1].
Proof.
move=> m V D ph nd anc done g1 g2 c1 c2 V1 V2 v W1 W2 U1 U2 F1 F2 WD Dn R1 R2 E P.
by have [K [UK AK EK _]] := zx_true W1 W2 U1 U2 F1 F2 WD Dn R1 R2 E P; exists K.
Qed.
(** these are the garbage qubits if the outputs are where the inputs were *)
Theorem C55_skipped_are_garbage : forall (g1 g2 : nat -> bool) (c : circuit),
  (forall i v, (i, v) \in c_output _ _ _ c -> c_layout _ _ _ c i = v) -> skipped_outputs g1 g2 c \subset [set q : 'I_n | g1 q && g2 q].
Proof.
move=> g1 g2 c H; apply/subsetP => q; rewrite !inE => /hasP [[i q'] I /= /and3P [/eqP <- G1 G2]].
by have e : c_layout _ _ _ c i = q' := H _ _ I; move: G1 G2; rewrite e => -> ->.
Qed.
End S.
Print Assumptions C55_equivalence_true.
Print Assumptions C55_garbage_difference.
Print Assumptions C55_skipped_are_garbage.

Section Demo.
Variable C : numClosedFieldType.
Local Notation Lg := [finType of 'I_2].
Local Notation gate := (gate C nat_eqType).
Local Notation circuit := (circuit nat_eqType Lg gate).
Local Notation mat := (mat C Lg).

(** in general they are not: circuit 2 is a Hadamard gate on the qubit whose output is logical qubit 1, logical qubit 0 is garbage, and
    the checker skips wire 0 *)
Theorem C55_garbage_index_refuted :
  ~ (forall m (V : finType) (D : diagram C 2 m V) (ph : C) (g1 g2 : nat -> bool) (c1 c2 : circuit) (V1 V2 : mat),
     wf_circuit c1 -> wf_circuit c2 -> unitary_circuit c1 -> unitary_circuit c2 ->
     wf_diagram D -> no_isolated D -> denotes D ph (wire_op c2 *m adj (wire_op c1)) -> realises c1 V1 -> realises c2 V2 ->
     zx_answer false false false g1 g2 c1 c2 D ph = ZVerdict Equivalent ->
     exists2 K : mat, acts_only_on [set q : 'I_2 | g1 q && g2 q] K & V2 = K *m V1).
Proof.
move=> H; have [W1 W2 U1 U2] := bad_wf C.
have [V1 [_ [R1 _]]] := computes_ex 0%N W1; have [V2 [_ [R2 _]]] := computes_ex 0%N W2.
have Dn : denotes (wires_diagram C (1%g : {perm 'I_2}) (fun i => i == lay2 0%N)) 1
    (wire_op (zqc [:: Had C 0%N] [:: (0%N, lay2 1%N)]) *m adj (wire_op (zqc [::] [:: (0%N, lay2 1%N)]))).
  split; first exact: normr1.
  by exists 1; rewrite ?ltr01 // !scale1r bad_sem /wire_op /= adj_1 mulmx1 mul1mx.
have [K AK EK] := H _ _ _ _ _ _ _ _ _ _ W1 W2 U1 U2 (wires_wf C _ _) (@wires_bare C _ _ _) Dn R1 R2 (bad_answer C).
exact: (bad_garbage R1 R2 AK EK).
Qed.
(** ancillaries are post-selected: circuit 2 is a Hadamard gate on the ancillary qubit, circuit 1 is empty; found in state 0 the ancillary leaves
    the data qubit alone, and the checker answers 'equivalent' *)
Theorem C55_ancillary_refuted :
  ~ (forall (V : finType) (D : diagram C 1 1 V) (c1 c2 : circuit) (V1 V2 : mat),
     wf_circuit c1 -> wf_circuit c2 -> unitary_circuit c1 -> unitary_circuit c2 -> full_maps c1 -> full_maps c2 ->
     wf_diagram D -> no_isolated D -> realises c1 V1 -> realises c2 V2 ->
     denotes D 1 (post_selected V2 *m adj (post_selected V1)) ->
     zx_run false true false (fun _ => false) (fun _ => false) (output_map c1) (layout_map c1) 2 (output_map c2) (layout_map c2) 2 (view true D) = ZVerdict Equivalent ->
     exists w : C, agree_up_to [set lay2 1%N] w V1 V2).
Proof.
move=> H; have [[W1 W2 U1 U2] [F1 F2]] := anc_wf C.
have [V1 [_ [R1 _]]] := computes_ex 0%N W1; have [V2 [_ [R2 _]]] := computes_ex 0%N W2.
have [w Hw] := H _ _ _ _ _ _ W1 W2 U1 U2 F1 F2 (wires_wf C _ _) (@wires_bare C _ _ _) R1 R2 (anc_denotes R1 R2) (anc_answer C).
exact: (anc_differ R1 R2 Hw).
Qed.
(** H on one qubit, against a SWAP followed by H on the other qubit and exchanged outputs *)
Example C55_hypotheses_met :
  let c1 : circuit := zqc [:: Had C 0%N] out_id in
  let c2 : circuit := zqc [:: ZSwap C; Had C 1%N] out_swap in
  let D := wires_diagram C sw (fun _ => false) in
  [/\ wf_circuit c1, wf_circuit c2, unitary_circuit c1 & unitary_circuit c2] /\
  [/\ full_maps c1, full_maps c2, wf_diagram D & no_isolated D] /\
  denotes D 1 (wire_op c2 *m adj (wire_op c1)) /\
  zx_answer false false false (fun _ => false) (fun _ => false) c1 c2 D 1 = ZVerdict Equivalent.
Proof. by move=> c1 c2 D; have [A B] := demo_wf C; split=> //; split=> //; split; [exact: demo_denotes|exact: demo_answer]. Qed.
End Demo.
Print Assumptions C55_garbage_index_refuted.
Print Assumptions C55_ancillary_refuted.

(** what the diagrams mean (so that [denotes] says what it should): bare wires are a permutation of the qubits, a Z-spider with phase factor [a]
    on a wire is diag (1, a), an X-spider the same between Hadamard gates, and Hadamard edges are Hadamard gates *)
Theorem C55_meaning_of_wires : forall (C : numClosedFieldType) n (t : perm.perm_of (Phant 'I_n)) (x y : basis [finType of 'I_n]),
  entry (zx_sem (wires_diagram C t (fun _ => false))) x y = ([forall i, y i == x (t i)])%:R.
Proof.
move=> C n t x y; rewrite wires_entry; case: forallP => [H|/forallP]; first by rewrite big1 // => i _; rewrite /ekernel (eqP (H i)) eqxx.
rewrite negb_forall => /existsP [i ne]; apply/eqP/prodf_eq0; exists i => //; by rewrite /ekernel (negPf ne).
Qed.
Theorem C55_meaning_of_spiders : forall (C : numClosedFieldType) (a : C) (x y : basis [finType of 'I_1]),
  entry (zx_sem (chain (ZSpider a) false false)) x y = (if x ord0 == y ord0 then (if x ord0 then a else 1) else 0) /\
  entry (zx_sem (chain (XSpider a) false false)) x y = (if x ord0 == y ord0 then (1 + a) / 2%:R else (1 - a) / 2%:R) /\
  zx_sem (chain (ZSpider a) true true) = zx_sem (chain (XSpider a) false false).
Proof. by move=> C a x y; split; [exact: z_spider|split; [exact: x_spider|exact: z_conjugated]]. Qed.
Theorem C55_meaning_of_hadamard_edges : forall (C : numClosedFieldType) n (t : perm.perm_of (Phant 'I_n)) (x y : basis [finType of 'I_n]),
  entry (zx_sem (wires_diagram C t (fun _ => true))) x y = \prod_(i < n) ((if y i && x (t i) then -1 else 1) / sqrtC 2%:R).
Proof. by move=> C n t x y; rewrite wires_entry. Qed.
Print Assumptions C55_meaning_of_wires.
Print Assumptions C55_meaning_of_spiders.
Print Assumptions C55_meaning_of_hadamard_edges.
