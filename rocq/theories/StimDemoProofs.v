(** The counterexample: the circuits agree when their ancillary is 0, a stimulus with 1 there tells them apart. *)
From Coq Require Import BinNums NArith Lia.
From mathcomp Require Import all_ssreflect all_fingroup all_algebra.
From Verif Require Import Criterion Config Perm PermSpec StateGen Prep PrepSpec Schemes DDCheck DDSpec DDProofs Qubits QubitsProofs GateProofs QubitsProofs2 DDSem DDSemProofs
  DDSemProofs2 DDMain DDFlow DDFlowProofs DDDemo DDDemoProofs DDDemoProofs3 PrepSem PrepSemProofs2 StimSpec StimSem StimSemProofs StimDemo.
Set Implicit Arguments.
Unset Strict Implicit.
Unset Printing Implicit Defensive.
Import GRing.Theory Num.Theory.
Local Open Scope ring_scope.

Section Basis.
Variables (C : numClosedFieldType) (n : nat).
Local Notation Lg := [finType of 'I_n].
Local Notation vec := (vec C Lg).
Definition bits (l : seq bool) : basis Lg := [ffun q : 'I_n => nth false l q].
(** the vector of a computational stimulus is the basis vector of its bits *)
Lemma ket_bits clifford l x : (@ket C n clifford (SBits l)) (enum_rank x) ord0 = (x == bits l)%:R.
Proof.
rewrite mxE enum_rankK.
have E (q : 'I_n) : amp C (nth Bzero [seq (if b then Bone else Bzero) | b <- l] q) (x q) = (x q == nth false l q)%:R.
  case: (ltnP q (size l)) => ql.
    by rewrite (nth_map false) //; case: (nth false l q); case: (x q).
  by rewrite !nth_default ?size_map //; case: (x q).
rewrite (eq_bigr _ (fun q _ => E q)); case: eqP => [->|N].
  by rewrite big1 // => q _; rewrite ffunE eqxx.
have [q nq] : exists q, x q != nth false l q.
  apply/existsP; rewrite -negb_forall; apply/negP => /forallP H; apply: N; apply/ffunP => q; rewrite ffunE; exact/eqP.
by rewrite (bigD1 q) //= (negbTE nq) mul0r.
Qed.
Lemma inner_ket clifford l (f : vec) : inner f (@ket C n clifford (SBits l)) = (f (enum_rank (bits l)) ord0)^*.
Proof.
rewrite inner_sum (bigD1 (bits l)) // (ket_bits clifford) eqxx mulr1 big1 => [|x /negbTE N]; first exact: addr0.
by rewrite (ket_bits clifford) N mulr0.
Qed.
Lemma mul_ket clifford l (V : mat C Lg) x : (V *m @ket C n clifford (SBits l)) (enum_rank x) ord0 = entry V x (bits l).
Proof.
rewrite mxE (bigD1 (enum_rank (bits l))) // (ket_bits clifford) eqxx mulr1 big1 => [|i ni]; first exact: addr0.
have := ket_bits clifford l (enum_val i); rewrite enum_valK => ->.
by case: eqP => [e|_]; [move: ni; rewrite -e enum_valK eqxx|rewrite mulr0].
Qed.
End Basis.

Section Demo.
Variable C : numClosedFieldType.
Local Notation Lg := [finType of 'I_2].
Local Notation gate := (gate C nat_eqType).
Local Notation d1 := (anc0 [:: cx01 C]).
Local Notation d2 := (anc0 (nil : seq (op nat gate))).
Local Notation p1 := (as_circuit 1 d1).
Local Notation p2 := (as_circuit 1 d2).

Lemma anc0_wf l : wf_circ (@anc0 C l).
Proof.
have F k : qfind k [:: (0%N, 0%N); (1%N, 1%N)] = if (k < 2)%N then Some k else None by case: k => [|[|k]].
have M : is_map [:: (0%N, 0%N); (1%N, 1%N)].
  by repeat (constructor=> //=); lia.
have J : injective_map [:: (0%N, 0%N); (1%N, 1%N)].
  by move=> a b v; rewrite /maps !F; do 2!case: ifP => // _; case=> -> [].
have V v : values [:: (0%N, 0%N); (1%N, 1%N)] v <-> (v < 2)%coq_nat.
  split; first by case=> p; rewrite /maps F; case: ifP => // /ltP + [<-].
  by move/ltP => H; exists v; rewrite /maps F H.
by split=> //; split=> //; split=> //; split=> //; split=> //; split=> // v /V.
Qed.
Lemma anc0_inside1 : acts_inside d1.
Proof. by move=> o p [<-|[]]; rewrite /on_qubits /= !inE => /orP[] /eqP ->; [exists 0%N|exists 1%N]. Qed.
Lemma anc0_inside2 : acts_inside d2. Proof. by move=> o p []. Qed.
Lemma ok0 l : ok 1 (@anc0 C l). Proof. by apply: wf_ok => //; exact: anc0_wf. Qed.
Lemma wf1 : wf_circuit p1. Proof. by apply: ok_wf; [exact: ok0|exact: anc0_inside1]. Qed.
Lemma wf2 : wf_circuit p2. Proof. by apply: ok_wf; [exact: ok0|exact: anc0_inside2]. Qed.
Lemma un1 : unitary_circuit p1.
Proof.
move=> o [<-|[]] /=; apply: unitary_matrix_gate; split=> //=; last exact: xmat_unitary.
by move=> q; rewrite !inE => /eqP ->.
Qed.
Lemma un2 : unitary_circuit p2. Proof. by []. Qed.
Local Notation w0 := (inord 0 : 'I_2).
Local Notation w1 := (inord 1 : 'I_2).
Lemma two (q : 'I_2) : q = w0 \/ q = w1.
Proof. by case: q => [[|[|//]]] l; [left|right]; apply: val_inj; rewrite /= inordK. Qed.
Lemma w01 : (w1 == w0) = false. Proof. by apply/eqP => /(congr1 val); rewrite /= !inordK. Qed.
Lemma out_fixed l V : realises (as_circuit 1 (@anc0 C l)) V -> V = sem_ops (c_layout _ _ _ (as_circuit 1 (@anc0 C l))) l.
Proof.
move=> [s [H _ ->]]; suff -> : s = 1%g by rewrite Pm_1 mul1mx.
apply/permP => q; rewrite perm1; case: (two q) => ->; have := H _ _; rewrite /= => H'.
- by apply: (H' 0%N w0); rewrite inE eqxx.
- by apply: (H' 1%N w1); rewrite !inE eqxx orbT.
Qed.
Lemma val1 V : realises p1 V -> forall x y, entry V x y = if x w0 then ((x w0 == y w0) && (x w1 != y w1))%:R else (x == y)%:R.
Proof.
move=> /out_fixed -> x y /=; rewrite mul1mx entry_mx /gker /= andbT.
case: ifP => [/eqP X0|/eqP X0]; last by case E: (x w0) X0.
rewrite X0 /xmat; have -> : [forall q, (q \notin [:: w1]) ==> (x q == y q)] = (x w0 == y w0).
  apply/forallP/eqP => [H|H q]; first by have := H w0; rewrite inE eq_sym w01 => /eqP.
  by case: (two q) => ->; [rewrite H eqxx implybT|rewrite inE eqxx].
by rewrite X0; case: (true == y w0) => //=; rewrite eqseq_cons andbT.
Qed.
Lemma val2 V : realises p2 V -> V = 1%:M. Proof. by move=> /out_fixed ->. Qed.
Lemma demo_anc : common_ancillaries 1 d1 d2 = [set w0].
Proof.
apply/setP => q; rewrite !inE /=; case: (two q) => ->; rewrite ?eqxx ?w01 inordK //=.
Qed.
(** on inputs with 0 on the ancillary the circuits do the same *)
Lemma demo_agree V1 V2 : realises p1 V1 -> realises p2 V2 -> V1 *m proj0 C (common_ancillaries 1 d1 d2) = V2 *m proj0 C (common_ancillaries 1 d1 d2).
Proof.
rewrite demo_anc => R1 /val2 ->; apply: mxP => x z; rewrite !entry_projR (val1 R1) entry_1.
have -> : [forall q in [set w0], ~~ z q] = ~~ z w0.
  apply/forallP/idP => [/(_ w0)|H q]; first by rewrite inE eqxx.
  by rewrite inE; apply/implyP => /eqP ->.
case E: (z w0) => /=; first by rewrite !mulr0.
rewrite !mulr1; case X: (x w0) => //=.
by case: eqP => // e; move: E; rewrite -e X.
Qed.
Lemma demo_handled : ancillaries_handled p1 p2 (common_ancillaries 1 d1 d2).
Proof.
move=> q; rewrite demo_anc inE => /eqP ->; right; split; first by [].
by right; exists 0%N; [|rewrite /= inE eqxx].
Qed.
(** the stimulus 1 on the ancillary *)
Lemma demo_differ clifford V1 V2 (sn sw : vec C Lg -> vec C Lg -> bool) eps : realises p1 V1 -> realises p2 V2 ->
  @same_node_test C [lmodType C of vec C Lg] sn -> eps <= 1 ->
  sim_check sn sw eps (V1 *m ket clifford (SBits [:: true; false]), V2 *m ket clifford (SBits [:: true; false])) = NotEquivalent.
Proof.
move=> R1 /val2 -> hn e1; rewrite /sim_check mul1mx.
have Y : bits 2 [:: true; false] w0 = true by rewrite ffunE inordK.
have Y1 : bits 2 [:: true; false] w1 = false by rewrite ffunE inordK.
have Z : entry V1 (bits 2 [:: true; false]) (bits 2 [:: true; false]) = 0 by rewrite (val1 R1) Y eqxx Y1.
case: ifP => [/hn [w nw E]|_].
  have := congr1 (fun f : vec C Lg => f (enum_rank (bits 2 [:: true; false])) ord0) E.
  by rewrite mul_ket Z [RHS]mxE ket_bits eqxx mulr1 => e0; move: nw; rewrite -e0 eqxx.
have r0 : 'Re (0 : C) = 0 by apply/Creal_ReP; exact: real0.
have i0 : 'Im (0 : C) = 0 by apply/Creal_ImP; exact: real0.
rewrite inner_ket mul_ket Z conjC0 r0 i0 expr0n /= addr0 sub0r normrN normr1.
by case: ifP => //; rewrite (Order.POrderTheory.le_gtF e1).
Qed.
End Demo.
