(** C87: circuits without operations (src/EquivalenceCheckingManager.cpp:224-227, 319-323). Only statements; the proofs are in EmptyProofs.v. *)
From Coq Require Import BinNums NArith List Arith QArith.
From mathcomp Require Import all_ssreflect all_fingroup all_algebra.
From Verif Require Import Criterion Config SeqFlow SeqSpec SeqDemo VerdictSpec Perm PermSpec Prep PrepSpec Passes Schemes DDCheck DDSpec Qubits DDSem DDFlow PrepSem PropPrepSem Construct ConstructDemo
  Relation RelationDemo EmptySpec EmptyProofs.
Set Implicit Arguments.
Unset Strict Implicit.
Unset Printing Implicit Defensive.
Import GRing.Theory Num.Theory.
Local Open Scope ring_scope.

Section P.
Variable C : numClosedFieldType.
Local Notation gate := (gate C nat_eqType).
Local Notation op := (op nat gate).
Local Notation circ := (circ op).
Local Notation mat n := (mat C [finType of 'I_n.+1]).

(** what two circuits without operations do is the same (on inputs with zeros on the common ancillaries) exactly if every input that they share
    is read out as the same qubit; they never differ by a global phase only *)
Theorem C87_same_exactly_if_read_alike : forall n (c1 c2 : circ) (V1 V2 : mat n), wf_circ c1 -> wf_circ c2 -> q_ops c1 = nil -> q_ops c2 = nil ->
  reads_all c1 -> reads_all c2 -> maxn (q_n c1) (q_n c2) = n.+1 -> realises (as_circuit n c1) V1 -> realises (as_circuit n c2) V2 ->
  forall w, V1 *m proj0 C (common_ancillaries n c1 c2) = w *: (V2 *m proj0 C (common_ancillaries n c1 c2)) <-> w = 1 /\ same_readout c1 c2.
Proof. exact: (@agree_readout C). Qed.

(** whatever else is or is not read out: if an input that they share is read out as different qubits, the circuits differ *)
Theorem C87_read_elsewhere_differs : forall n (c1 c2 : circ) (V1 V2 : mat n) (q r1 r2 : nat), wf_circ c1 -> wf_circ c2 -> q_ops c1 = nil -> q_ops c2 = nil ->
  maxn (q_n c1) (q_n c2) = n.+1 -> realises (as_circuit n c1) V1 -> realises (as_circuit n c2) V2 ->
  shared_input c1 c2 q -> read_as c1 q r1 -> read_as c2 q r2 -> r1 <> r2 ->
  forall w, V1 *m proj0 C (common_ancillaries n c1 c2) <> w *: (V2 *m proj0 C (common_ancillaries n c1 c2)).
Proof. exact: (@read_elsewhere C). Qed.

(** a manager constructed for such circuits keeps them without operations whatever the passes are, and has something to execute exactly if the
    configuration has *)
Theorem C87_constructor : forall (apply : pass -> circ -> circ) isDynamic varfree nd cfg (c1 c2 c1' c2' : circ) s, wf_circ c1 -> wf_circ c2 ->
  is_empty c1 = true -> is_empty c2 = true -> construct (@on_qubits C) apply is_empty isDynamic varfree nd cfg c1 c2 = PVal (c1', c2', s) ->
  [/\ is_empty c1' = true, is_empty c2' = true & anythingToExecute (constructed cfg s) = anythingToExecute cfg].
Proof. exact: (@construct_empty C). Qed.

(** it always answers 'equivalent', which is true exactly if the shared inputs are read out as the same qubits *)
Theorem C87_verdict_true_exactly_if_read_alike : forall (apply : pass -> circ -> circ) isDynamic varfree nd cfg n (c1 c2 c1' c2' : circ) s,
  wf_circ c1 -> wf_circ c2 -> is_empty c1 = true -> is_empty c2 = true -> maxn (q_n c1) (q_n c2) = n.+1 ->
  construct (@on_qubits C) apply is_empty isDynamic varfree nd cfg c1 c2 = PVal (c1', c2', s) -> anythingToExecute cfg = true ->
  forall (Stim Gen : Type) fuel pf (e : env Stim Gen) ma, m_cfg ma = constructed cfg s -> e_empty e = is_empty c1' && is_empty c2' ->
  exists ma', [/\ SeqFlow.run fuel pf e ma = Returned ma', r_eq (m_res ma') = Equivalent &
    exists V1 V2 : mat n, [/\ realises (as_circuit n c1) V1, realises (as_circuit n c2) V2 &
    (reads_all c1 -> reads_all c2 -> (true_verdict (common_ancillaries n c1 c2) V1 V2 (r_eq (m_res ma')) <-> same_readout c1 c2))]].
Proof. exact: (@empty_answer C). Qed.

(** ** two qubits that are read out straight, and crossed: no operation, output permutation 0 -> 1, 1 -> 0 *)
Definition straight : circ := idq [::] 2.
Definition crossed : circ := mkCirc nil 2 [:: (0, 0); (1, 1)]%N [:: (0, 1); (1, 0)]%N (fun _ => false) (fun _ => false).
Lemma crossed_wf : wf_circ crossed.
Proof.
have two k (P : Prop) : (k = 0%N -> P) -> (k = 1%N -> P) -> (forall j, k = j.+2 -> P) -> P by case: k => [|[|j]] a b c; [exact: a|exact: b|exact: (c j)].
split; [|split; [|split; [|split; [|split; [|split]]]]].
- by repeat constructor.
- by move=> [|[|k]] [|[|k']] v; rewrite /maps //= => -[<-].
- move=> v; split; first by move=> [[|[|k]]]; rewrite /maps //= => -[<-]; auto.
  by case: v => [|[|v]] h; [exists 0%N|exists 1%N|move/ltP: h].
- by repeat constructor.
- by move=> [|[|k]] [|[|k']] v; rewrite /maps //= => -[<-].
- by move=> v [[|[|k]]]; rewrite /maps //= => -[<-]; auto.
- by move=> [|[|p]] [v]; rewrite /maps //= => _; [exists 0%N|exists 1%N].
Qed.
Lemma crossed_reads : reads_all crossed.
Proof. by move=> [|[|q]] h //; [exists 1%N|exists 0%N]. Qed.
(** 'equivalent' is answered for them, in any configuration in which something is executed, although they are not equivalent *)
Theorem C87_verdict_true_refuted : exists c1 c2 : circ,
  [/\ [/\ wf_circ c1, wf_circ c2, reads_all c1 & reads_all c2], is_empty c1 = true, is_empty c2 = true, no_ancillaries c1 /\ no_ancillaries c2 & q_n c1 = 2%N /\ q_n c2 = 2%N] /\
  forall (apply : pass -> circ -> circ) isDynamic varfree nd cfg c1' c2' s,
  construct (@on_qubits C) apply is_empty isDynamic varfree nd cfg c1 c2 = PVal (c1', c2', s) -> anythingToExecute cfg = true ->
  forall (Stim Gen : Type) fuel pf (e : env Stim Gen) ma, m_cfg ma = constructed cfg s -> e_empty e = is_empty c1' && is_empty c2' ->
  exists ma' (V1 V2 : mat 1), [/\ SeqFlow.run fuel pf e ma = Returned ma', r_eq (m_res ma') = Equivalent,
    realises (as_circuit 1 c1) V1, realises (as_circuit 1 c2) V2 & forall w, V1 <> w *: V2].
Proof.
have W1 : wf_circ straight by exact: idq_wf. have W2 := crossed_wf.
exists straight, crossed; split; first by split=> //; split=> //; [exact: idq_reads_all|exact: crossed_reads].
move=> apply isDynamic varfree nd cfg c1' c2' s EC an Stim Gen fuel pf e ma Ec Ee.
have [ma' [Er Ev [V1 [V2 [R1 R2 _]]]]] := C87_verdict_true_exactly_if_read_alike (n := 1) W1 W2 erefl erefl erefl EC an fuel pf Ec Ee.
exists ma', V1, V2; split=> // w Ew.
apply: (@C87_read_elsewhere_differs 1 straight crossed V1 V2 0 0 1 W1 W2 erefl erefl erefl R1 R2 _ _ _ _ w).
- by split; [apply/ltP|split; [apply/ltP|]].
- by exists 0%N.
- by exists 0%N.
- by [].
- by rewrite Ew scalemxAl.
Qed.
(** the constructor does construct such managers, and the hypotheses of the theorems can be met with and without equal readout *)
Example C87_constructed : exists c1' c2' s,
  construct (@on_qubits C) (fun _ c => c) is_empty (fun _ => false) (fun _ => true) true construct_cfg straight crossed = PVal (c1', c2', s) /\
  q_n c1' = 2%N /\ anythingToExecute construct_cfg = true /\ ~ same_readout straight crossed /\ same_readout straight straight.
Proof.
eexists _, _, _; split; [vm_compute; reflexivity|split; [by []|split; [by []|split]]]; last by [].
move=> H; have [] := H 0%N 0%N; first by split; [apply/ltP|split; [apply/ltP|]].
by move=> X _; have [[|[|p]] []] := X (ex_intro _ 0%N (conj erefl erefl)).
Qed.
End P.
Print Assumptions C87_same_exactly_if_read_alike.
Print Assumptions C87_read_elsewhere_differs.
Print Assumptions C87_constructor.
Print Assumptions C87_verdict_true_exactly_if_read_alike.
Print Assumptions C87_verdict_true_refuted.
