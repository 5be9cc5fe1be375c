(** C64: the preparation of the circuits does not change what they do. *)
From Coq Require Import BinNums NArith Arith List.
From mathcomp Require Import all_ssreflect all_fingroup all_algebra.
From Verif Require Import Criterion Config SeqFlow SeqSpec Perm PermSpec Prep PrepSpec PropPrep Schemes DDCheck DDSpec Qubits DDSem DDFlow EndToEndProofs ZXDemo
  VerdictSpec ParFlow ParSpec SeqDemo PrepSem LiftProofs PrepSemProofs3.
Set Implicit Arguments.
Unset Strict Implicit.
Unset Printing Implicit Defensive.
Import GRing.Theory Num.Theory.
Local Open Scope ring_scope.

Section P.
Variable C : numClosedFieldType.
Local Notation gate := (gate C nat_eqType).
Local Notation op := (op nat gate).
Local Notation circ := (circ op).
Local Notation mat n := (mat C [finType of 'I_n.+1]).
Local Notation vec n := (vec C [finType of 'I_n.+1]).

(** the operators of the given circuits are those of the prepared ones on the qubits that are left, and nothing on the others; the order of
    the qubits is kept; the ancillaries common to the prepared circuits are those of the given ones and the qubits one circuit lacked *)
Theorem C64_operators_kept : forall nd n m (c1 c2 c1' c2' : circ),
  wf_circ c1 -> wf_circ c2 -> acts_inside c1 -> acts_inside c2 -> garbage_unread c1 -> garbage_unread c2 ->
  prepare (@on_qubits C) nd c1 c2 = PVal (c1', c2') -> maxn (q_n c1) (q_n c2) = n.+1 -> q_n c1' = m.+1 ->
  q_n c2' = m.+1 /\ exists F : 'I_m.+1 -> 'I_n.+1,
  [/\ wf_circuit (as_circuit m c1') /\ wf_circuit (as_circuit m c2'), {mono F : a b / (a < b)%N},
      forall V : mat n, realises (as_circuit n c1) V <-> exists2 V' : mat m, realises (as_circuit m c1') V' & V = lift F V',
      forall V : mat n, realises (as_circuit n c2) V <-> exists2 V' : mat m, realises (as_circuit m c2') V' & V = lift F V' &
      common_ancillaries m c1' c2' = F @^-1: common_ancillaries n c1 c2].
Proof. exact: prep_sem. Qed.
(** the prepared circuits agree iff the given ones do *)
Theorem C64_agreement_kept : forall nd n m (c1 c2 c1' c2' : circ) (w : C),
  wf_circ c1 -> wf_circ c2 -> acts_inside c1 -> acts_inside c2 -> garbage_unread c1 -> garbage_unread c2 ->
  prepare (@on_qubits C) nd c1 c2 = PVal (c1', c2') -> maxn (q_n c1) (q_n c2) = n.+1 -> q_n c1' = m.+1 ->
  (exists V1 V2 : mat n, [/\ realises (as_circuit n c1) V1, realises (as_circuit n c2) V2 & agree_up_to (common_ancillaries n c1 c2) w V1 V2]) <->
  (exists V1 V2 : mat m, [/\ realises (as_circuit m c1') V1, realises (as_circuit m c2') V2 & agree_up_to (common_ancillaries m c1' c2') w V1 V2]).
Proof.
move=> nd n m c1 c2 c1' c2' w W1 W2 a1 a2 g1 g2 EP En Em.
have [_ [F [_ Fm R1 R2 EA]]] := prep_sem W1 W2 a1 a2 g1 g2 EP En Em.
have Fi : injective F.
  by move=> a b e; apply: val_inj; case: (ltngtP a b) => //; rewrite -Fm e ltnn.
rewrite EA; split=> -[V1 [V2 [r1 r2 ag]]].
  have [U1 u1 e1] := (R1 V1).1 r1; have [U2 u2 e2] := (R2 V2).1 r2.
  by exists U1, U2; split=> //; apply/(lift_agree Fi); rewrite -e1 -e2.
exists (lift F V1), (lift F V2); split; [by apply/R1; exists V1|by apply/R2; exists V2|exact/(lift_agree Fi)].
Qed.
(** if no qubit is left, the given circuits do nothing and the prepared ones are empty (the run then answers 'equivalent', C13) *)
Theorem C64_no_qubit_left : forall nd n (c1 c2 c1' c2' : circ),
  wf_circ c1 -> wf_circ c2 -> acts_inside c1 -> acts_inside c2 ->
  (forall o, List.In o (q_ops c1) -> exists p, on_qubits o p) -> (forall o, List.In o (q_ops c2) -> exists p, on_qubits o p) ->
  prepare (@on_qubits C) nd c1 c2 = PVal (c1', c2') -> q_n c1' = 0%N ->
  [/\ q_ops c1' = nil, q_ops c2' = nil, forall V : mat n, realises (as_circuit n c1) V <-> V = 1%:M &
      forall V : mat n, realises (as_circuit n c2) V <-> V = 1%:M].
Proof. exact: prep_vanish. Qed.

(** circuits with the same number of qubits: the common ancillaries are those that both have *)
Lemma common_own m (c1 c2 : circ) : q_n c1 = m.+1 -> q_n c2 = m.+1 -> common_ancillaries m c1 c2 = own_ancillaries m c1 :&: own_ancillaries m c2.
Proof. by move=> E1 E2; apply/setP => q; rewrite !inE E1 E2 minnn leqNgt ltn_ord. Qed.

(** from the circuits as given to the verdict: an uninterrupted sequential run on the prepared circuits decides whether the given circuits
    agree on all inputs with zeros on the common ancillaries. [A1], [A2]: the ancillaries of the prepared circuits *)
Theorem C64_run_decides_given_circuits : forall nd n m (c1 c2 c1' c2' : circ),
  wf_circ c1 -> wf_circ c2 -> acts_inside c1 -> acts_inside c2 -> garbage_unread c1 -> garbage_unread c2 ->
  unitary_circuit (as_circuit n c1) -> unitary_circuit (as_circuit n c2) ->
  prepare (@on_qubits C) nd c1 c2 = PVal (c1', c2') -> maxn (q_n c1) (q_n c2) = n.+1 -> q_n c1' = m.+1 ->
  let p1 := as_circuit m c1' in let p2 := as_circuit m c2' in let A1 := own_ancillaries m c1' in let A2 := own_ancillaries m c2' in
  let A := common_ancillaries n c1 c2 in
  forall zero : nat, exists V1 V2 : mat n, [/\ realises (as_circuit n c1) V1, realises (as_circuit n c2) V2 &
  forall (q : package C [finType of 'I_m.+1] nat_eqType) (s : schemes) (eps : C), exact_package q -> good_schemes q p1 p2 s -> 0 < eps ->
  forall (Stim Gen : Type) (stim : Stim -> vec m) (e : env Stim Gen), describes q s zero p1 p2 A1 A2 eps stim e ->
    forall fuel pf ma l g', stimuli_fit (A1 :&: A2) stim e (m_gen ma) ->
    choose_flow e (m_cfg ma) = FSequential -> never_fires e (m_cfg ma) -> no_exceptions e (m_cfg ma) ->
    runAlternatingChecker (exec (m_cfg ma)) = true /\ (can_handle p1 p2 A1 A2 -> ancillaries_handled p1 p2 (A1 :&: A2)) \/
    runAlternatingChecker (exec (m_cfg ma)) = false /\ runConstructionChecker (exec (m_cfg ma)) = true /\ A1 = A2 ->
    r_performed (m_res ma) = 0%num -> draws e (m_gen ma) l g' -> N.of_nat (length l) = maxSims (sim (m_cfg ma)) ->
    (length l < fuel)%coq_nat -> (runSimulationChecker (exec (m_cfg ma)) = true -> l = nil -> e_ndebug e = true) ->
    exists ma', SeqFlow.run fuel pf e ma = Returned ma' /\
      [/\ r_eq (m_res ma') = Equivalent <-> V1 *m proj0 C A = V2 *m proj0 C A,
          r_eq (m_res ma') = EquivalentUpToGlobalPhase <-> exists w, [/\ `|w| = 1, w != 1 & V1 *m proj0 C A = w *: (V2 *m proj0 C A)] &
          r_eq (m_res ma') = NotEquivalent <-> forall w, V1 *m proj0 C A <> w *: (V2 *m proj0 C A)]].
Proof.
move=> nd n m c1 c2 c1' c2' W1 W2 a1 a2 g1 g2 U1 U2 EP En Em p1 p2 A1 A2 A zero.
have [Em2 [F [[Wf1 Wf2] Fm R1 R2 EA]]] := prep_sem W1 W2 a1 a2 g1 g2 EP En Em.
have Fi : injective F.
  by move=> a b e; apply: val_inj; case: (ltngtP a b) => //; rewrite -Fm e ltnn.
have [X1 [X2 [o [q1 [q2 _]]]]] := C40_prepare (@on_qubits C) nd c1 c2 W1 W2.
move: o; rewrite EP => -[? ?]; subst X1 X2.
have U1' : unitary_circuit p1 by move=> o; rewrite /p1 /= q1 => Ho; apply: (unitary_op_down Fi); exact: U1.
have U2' : unitary_circuit p2 by move=> o; rewrite /p2 /= q2 => Ho; apply: (unitary_op_down Fi); exact: U2.
have [V1 [V2 [r1 r2 H]]] := run_decides zero Wf1 Wf2 U1' U2'.
exists (lift F V1), (lift F V2); split; [by apply/R1; exists V1|by apply/R2; exists V2|].
move=> q s eps hq hs e0 Stim Gen stim e hd fuel pf ma l g' hst h1 h2 h3 h4 h5 h6 h7 h8 h9.
have [ma' [Rm [H1 H2 H3]]] := H q s A1 A2 eps hq hs e0 Stim Gen stim e hd fuel pf ma l g' hst h1 h2 h3 h4 h5 h6 h7 h8 h9.
have LA w : agree_up_to A w (lift F V1) (lift F V2) <-> agree_up_to (A1 :&: A2) w V1 V2 by rewrite -(common_own Em Em2) EA; exact: lift_agree.
have L1 : lift F V1 *m proj0 C A = lift F V2 *m proj0 C A <-> V1 *m proj0 C (A1 :&: A2) = V2 *m proj0 C (A1 :&: A2).
  by have := LA 1; rewrite /agree_up_to !scale1r.
exists ma'; split=> //; split.
- by rewrite H1 L1.
- by rewrite H2; split=> -[w [w1 w2 ag]]; exists w; split=> //; apply/LA.
- by rewrite H3; split=> N w ag; apply: (N w); apply/LA.
Qed.

(** ** the hypotheses are met *)
Definition idq (l : seq op) n : circ :=
  mkCirc l n (List.map (fun i => (i, i)) (List.seq 0 n)) (List.map (fun i => (i, i)) (List.seq 0 n)) (fun _ => false) (fun _ => false).
Lemma idq_find n k : qfind k (List.map (fun i => (i, i)) (List.seq 0 n)) = if (k < n)%N then Some k else None.
Proof. by rewrite idmap_find /= (_ : Nat.ltb k (0 + n) = (k < n)%N) //; case: ltnP => [/ltP /Nat.ltb_lt|/leP /Nat.ltb_ge]. Qed.
Lemma idq_wf l n : wf_circ (idq l n).
Proof. exact: (idc_wf nil n). Qed.
(** H on qubit 0 of two, with two Hs on qubit 3 of four (qubits 1 and 2 are idle), against H on qubit 0 of three *)
Example C64_hypotheses_met :
  let c1 := idq [:: Had C 0; Had C 3; Had C 3] 4 in let c2 := idq [:: Had C 0] 3 in
  [/\ wf_circ c1, wf_circ c2, acts_inside c1 & acts_inside c2] /\ [/\ garbage_unread c1, garbage_unread c2, maxn (q_n c1) (q_n c2) = 4%N &
    exists c1' c2', [/\ prepare (@on_qubits C) true c1 c2 = PVal (c1', c2'), q_n c1' = 2%N, q_lay c1' = [:: (0%N, 0%N); (3%N, 1%N)] &
      q_lay c2' = [:: (0%N, 0%N); (1%N, 1%N)]]].
Proof.
have T n l : (forall o, List.In o l -> exists2 q, o = Had C q & (q < n)%N) -> acts_inside (idq l n).
  move=> H o p Ho; have [q -> lq] := H o Ho; rewrite /on_qubits /= inE => /eqP ->; exists q; by rewrite /maps /= idq_find lq.
split; split; try exact: idq_wf; try by [].
- by apply: T => o /=; case=> [<-|[<-|[<-|[]]]]; [exists 0%N|exists 3%N|exists 3%N].
- by apply: T => o /=; case=> [<-|[]]; exists 0%N.
- by eexists _, _; split; [vm_compute; reflexivity| | |].
Qed.
End P.
Print Assumptions C64_operators_kept.
Print Assumptions C64_agreement_kept.
Print Assumptions C64_no_qubit_left.
Print Assumptions C64_run_decides_given_circuits.
