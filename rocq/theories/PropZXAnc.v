(** C73: what an equivalence reported by the ZX checker means for circuits with ancillary qubits. *)
From mathcomp Require Import all_ssreflect all_fingroup all_algebra.
From Verif Require Import Criterion Perm PermSpec PermProofs ZX ZXSpec ZXProofs DDCheck DDSpec Qubits QubitsProofs DDSem ZXSem ZXSemProofs ZXSemProofs2 ZXDemo ZXDemoProofs DDSemProofs ZXAnc ZXAncProofs ZXAncDemo.
Set Implicit Arguments.
Unset Strict Implicit.
Unset Printing Implicit Defensive.
Import GRing.Theory Num.Theory GroupScope.
Local Open Scope ring_scope.

Section S.
Variables (C : numClosedFieldType) (w a : nat).
Local Notation Lg := [finType of 'I_(w + a)].
Local Notation gate := (gate C nat_eqType).
Local Notation circuit := (circuit nat_eqType Lg gate).
Local Notation mat := (mat C Lg).
Local Notation anc := (ancillaries w a).

(** two circuits that return their ancillaries to state 0, no garbage: an equivalence up to global phase is one, an equivalence is an
    equality, for all inputs with the ancillaries in state 0 *)
Theorem C73_equivalence_true : forall m (V : finType) (D : diagram C w m V) (ph : C) nd nanc1 nanc2 done (g1 g2 : nat -> bool) (c1 c2 : circuit)
    (l1 l2 : 'I_w -> 'I_(w + a)) (V1 V2 : mat),
  wf_circuit c1 -> wf_circuit c2 -> unitary_circuit c1 -> unitary_circuit c2 -> full_maps c1 -> full_maps c2 ->
  data_wires c1 l1 -> data_wires c2 l2 -> wf_labelled l1 l2 D -> no_isolated D -> denotes D ph (remaining l2 c2 *m adj (remaining l1 c1)) ->
  realises c1 V1 -> realises c2 V2 -> returns_ancillaries V1 -> returns_ancillaries V2 -> (forall i : 'I_w, ~~ (g1 i && g2 i)) ->
  let answer := zx_answer_anc nd (ancilla_flag nanc1 nanc2) done g1 g2 c1 c2 D ph in
  (answer = ZVerdict Equivalent -> V2 *m proj0 C anc = V1 *m proj0 C anc) /\
  (answer = ZVerdict EquivalentUpToGlobalPhase -> exists2 z : C, `|z| = 1 & V2 *m proj0 C anc = z *: (V1 *m proj0 C anc)).
Proof.
move=> m V D ph nd n1 n2 done g1 g2 c1 c2 l1 l2 V1 V2 W1 W2 U1 U2 F1 F2 L1 L2 WD NI Dn R1 R2 T1 T2 ng answer; split=> E.
- have [K [_ _ EK /(_ ng) [_ H]]] := zx_anc_true W1 W2 U1 U2 F1 F2 L1 L2 WD Dn R1 R2 T1 T2 E (or_introl erefl).
  rewrite -[RHS]scale1r; apply: agree_on_data => //; by rewrite EK H // mul1mx scale1r.
- have [K [_ _ EK /(_ ng) [[z z1 Ez] _]]] := zx_anc_true W1 W2 U1 U2 F1 F2 L1 L2 WD Dn R1 R2 T1 T2 E (or_intror erefl).
  by exists z => //; apply: agree_on_data => //; rewrite EK Ez -scalemxAl mul1mx.
Qed.
(** with garbage: on the data qubits they differ at most by an operator on the outputs of the remaining wires whose index is garbage in both *)
Theorem C73_garbage_difference : forall m (V : finType) (D : diagram C w m V) (ph : C) nd nanc1 nanc2 done (g1 g2 : nat -> bool) (c1 c2 : circuit)
    (l1 l2 : 'I_w -> 'I_(w + a)) (V1 V2 : mat) v,
  wf_circuit c1 -> wf_circuit c2 -> unitary_circuit c1 -> unitary_circuit c2 -> full_maps c1 -> full_maps c2 ->
  data_wires c1 l1 -> data_wires c2 l2 -> wf_labelled l1 l2 D -> denotes D ph (remaining l2 c2 *m adj (remaining l1 c1)) ->
  realises c1 V1 -> realises c2 V2 -> returns_ancillaries V1 -> returns_ancillaries V2 ->
  zx_answer_anc nd (ancilla_flag nanc1 nanc2) done g1 g2 c1 c2 D ph = ZVerdict v -> v = Equivalent \/ v = EquivalentUpToGlobalPhase ->
  exists K, [/\ unitary K, acts_only_on (skipped_data g1 g2 l1 c1) K & on_data V2 = K *m on_data V1].
Proof.
move=> m V D ph nd n1 n2 done g1 g2 c1 c2 l1 l2 V1 V2 v W1 W2 U1 U2 F1 F2 L1 L2 WD Dn R1 R2 T1 T2 E P.
by have [K [UK AK EK _]] := zx_anc_true W1 W2 U1 U2 F1 F2 L1 L2 WD Dn R1 R2 T1 T2 E P; exists K.
Qed.
(** as soon as one circuit has an ancillary qubit, no difference is ever reported, not even a probable one (assertions enabled or not) *)
Theorem C73_no_difference_reported : forall m (V : finType) (D : diagram C w m V) (ph : C) nd nanc1 nanc2 done (g1 g2 : nat -> bool) (c1 c2 : circuit) v,
  (nanc1 != 0%N) || (nanc2 != 0%N) -> zx_answer_anc nd (ancilla_flag nanc1 nanc2) done g1 g2 c1 c2 D ph = ZVerdict v ->
  [\/ v = Equivalent, v = EquivalentUpToGlobalPhase | v = NoInformation].
Proof.
move=> m V D ph nd n1 n2 done g1 g2 c1 c2 v A.
have ->: ancilla_flag n1 n2 = true by move: A; rewrite /ancilla_flag; case: n1 => [|?]; case: n2.
rewrite /zx_answer_anc /zx_run; case: ifP => _; last by case=> <-; constructor 3.
case: (invertPermutations _ _ _) => [r1|//]; case: (invertPermutations _ _ _) => [r2|//]; case: (check_wires _ _ _ _ _ _ _) => // b [<-].
case: b => /=; last by constructor 3.
by case: done => /=; [constructor 3|case: ifP => _; [constructor 1|constructor 2]].
Qed.
End S.
Print Assumptions C73_no_difference_reported.
Print Assumptions C73_equivalence_true.
Print Assumptions C73_garbage_difference.

(** one data qubit, one ancillary: H on the data qubit, against a SWAP with the ancillary followed by H there and exchanged outputs; a single
    wire from wire 0 of circuit 1 to wire 1 of circuit 2 remains *)
Section Demo.
Variable C : numClosedFieldType.
Let c1 : circuit nat_eqType [finType of 'I_(1 + 1)] (gate C nat_eqType) := zqc [:: Had C 0%N] out_id.
Let c2 : circuit nat_eqType [finType of 'I_(1 + 1)] (gate C nat_eqType) := zqc [:: ZSwap C; Had C 1%N] out_swap.
Let l1 : 'I_1 -> 'I_(1 + 1) := fun _ => lay2 0%N.
Let l2 : 'I_1 -> 'I_(1 + 1) := fun _ => lay2 1%N.
Local Notation one_wire := (one_wire C).
Example C73_hypotheses_met :
  [/\ wf_circuit c1, wf_circuit c2, unitary_circuit c1 & unitary_circuit c2] /\ (full_maps c1 /\ full_maps c2) /\
  (data_wires c1 l1 /\ data_wires c2 l2) /\ [/\ wf_labelled l1 l2 one_wire, no_isolated one_wire & denotes one_wire 1 (remaining l2 c2 *m adj (remaining l1 c1))] /\
  (exists V1 V2, [/\ realises c1 V1, realises c2 V2, returns_ancillaries V1 & returns_ancillaries V2]) /\
  zx_answer_anc false (ancilla_flag 1 1) false (fun _ => false) (fun _ => false) c1 c2 one_wire 1 = ZVerdict Equivalent.
Proof.
have [Wf [F1 F2 _ _]] := demo_wf C; split=> //; split=> //; split; first exact: (demo_data C).
split; first by split; [exact: (demo_labelled C)|exact: (@wires_bare C 1 (1%g : {perm 'I_1}) (fun _ => false))|exact: (demo_rest C)].
split; last exact: (demo_verdict C).
case: Wf => W1 W2 _ _; have [V1 [_ [R1 _]]] := computes_ex 0%N W1; have [V2 [_ [R2 _]]] := computes_ex 0%N W2.
exists V1, V2; split=> //; first exact: demo_returns.
by rewrite (demo_same R1 R2); exact: demo_returns.
Qed.
End Demo.
