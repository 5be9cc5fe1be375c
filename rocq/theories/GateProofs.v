(** Gates with a unitary matrix are unitary wherever they are placed. *)
From mathcomp Require Import all_ssreflect all_fingroup all_algebra.
From Verif Require Import DDCheck DDSpec DDProofs Qubits QubitsProofs.
Set Implicit Arguments.
Unset Strict Implicit.
Unset Printing Implicit Defensive.
Import GRing.Theory Num.Theory.
Local Open Scope ring_scope.

Section P.
Variables (C : numClosedFieldType) (Lg : finType) (Ph : eqType).
Local Notation basis := (basis Lg).
Local Notation gate := (gate C Ph).

Section G.
Variables (g : gate) (p : Ph -> Lg).
Hypotheses (hu : unitary_matrix g) (hi : {in g_qubits g &, injective p}).
Let T := map p (g_tgt g).
Let n := size (g_tgt g).
Definition rd (x : basis) : seq bool := map (fun t => x (p t)) (g_tgt g).
Definition wr (x : basis) (b : seq bool) : basis := [ffun q => if q \in T then nth false b (index q T) else x q].
Definition agr (x y : basis) : bool := [forall q, (q \notin T) ==> (x q == y q)].

Lemma tgtT t : t \in g_tgt g -> p t \in T. Proof. by move=> Ht; apply: map_f. Qed.
Lemma uniqT : uniq T.
Proof.
case: hu => Hu _ _; rewrite map_inj_in_uniq // => a b Ha Hb; apply: hi; by rewrite mem_cat ?Ha ?Hb orbT.
Qed.
Lemma size_rd x : size (rd x) = n. Proof. by rewrite size_map. Qed.
Lemma rdE x : rd x = map x T. Proof. by rewrite /rd /T -map_comp. Qed.
Lemma rd_wr x b : size b = n -> rd (wr x b) = b.
Proof.
move=> Hb; apply: (@eq_from_nth _ false); first by rewrite size_rd Hb.
move=> i; rewrite size_rd => Hi; have HiT : (i < size T)%N by rewrite size_map.
have q0 : Lg by case: (T) HiT => [|q0 s] // _; exact: q0.
by rewrite rdE (nth_map q0) // /wr ffunE mem_nth // index_uniq // uniqT.
Qed.
Lemma wr_rd x y : agr x y -> wr x (rd y) = y.
Proof.
move/forallP => H; apply/ffunP => q; rewrite ffunE; case: ifP => Hq.
- by rewrite rdE (nth_map q) ?index_mem // nth_index.
- by apply/eqP; move/implyP: (H q); apply; rewrite Hq.
Qed.
Lemma agr_wr x b : agr x (wr x b).
Proof. by apply/forallP => q; apply/implyP => Hq; rewrite ffunE (negbTE Hq). Qed.
Lemma agr_sym x y : agr x y = agr y x.
Proof. by apply/forallP/forallP => H q; apply/implyP => Hq; rewrite eq_sym; move/implyP: (H q); apply. Qed.
Lemma agr_trans x y z : agr x y -> agr y z -> agr x z.
Proof. by move=> /forallP H /forallP K; apply/forallP => q; apply/implyP => Hq; move: (H q) (K q); rewrite Hq /= => /eqP -> . Qed.
Lemma agr_rd x z : agr x z -> (rd x == rd z) = (x == z).
Proof.
move=> H; apply/eqP/eqP => [E|-> //].
have Hx : agr x x by apply/forallP => q; rewrite eqxx implybT.
by rewrite -(wr_rd Hx) E (wr_rd H).
Qed.
Definition ctl (x : basis) := all (fun c => x (p c.1) == c.2) (g_ctrl g).
Lemma agr_ctl x y : agr x y -> ctl x = ctl y.
Proof.
move/forallP => H; apply: eq_in_all => c Hc; have /eqP -> // : x (p c.1) == y (p c.1).
move/implyP: (H (p c.1)); apply; apply/negP => /mapP[t Ht E].
case: hu => _ Hd _; have Hc1 : c.1 \in map fst (g_ctrl g) by apply: map_f.
have Ect : c.1 = t by apply: hi => //; rewrite mem_cat ?Hc1 // Ht orbT.
by move: (Hd _ Hc1); rewrite Ect Ht.
Qed.
Lemma gkerE x y : gker g p x y = if ctl x then (if agr x y then g_mat g (rd x) (rd y) else 0) else (x == y)%:R.
Proof. by []. Qed.

Lemma gate_unitary : unitary (gmx g p).
Proof.
apply: mxP => x z; rewrite entry_mul entry_1.
have -> : \sum_y entry (gmx g p) x y * entry (adj (gmx g p)) y z = \sum_y gker g p x y * (gker g p z y)^* .
  by apply: eq_bigr => y _; rewrite entry_adj !entry_mx.
case Cx : (ctl x); last first.
  rewrite (bigD1 x) //= big1 ?addr0; last by move=> y Hy; rewrite gkerE Cx eq_sym (negbTE Hy) mul0r.
  rewrite !gkerE Cx eqxx mul1r; case Cz : (ctl z); last by rewrite conjC_nat eq_sym.
  case Azx : (agr z x); first by rewrite (agr_ctl Azx) Cx in Cz.
  rewrite conjC0; case: eqP => // E; by rewrite E Cz in Cx.
case Axz : (agr x z); last first.
  rewrite big1; first by case: eqP => // E; move: Axz; rewrite E => /negP[]; apply/forallP => q; rewrite eqxx implybT.
  move=> y _; rewrite !gkerE Cx; case Axy : (agr x y); last by rewrite mul0r.
  case: (ctl z).
  - case Azy : (agr z y); last by rewrite conjC0 mulr0.
    by rewrite (agr_trans Axy) // agr_sym in Axz.
  - by case: eqP => [E|_]; [rewrite E Axy in Axz|rewrite conjC0 mulr0].
have Cz : ctl z by rewrite -(agr_ctl Axz).
rewrite (bigID (agr x)) /= [X in _ + X]big1 ?addr0; last by move=> y /negbTE Hy; rewrite gkerE Cx Hy mul0r.
rewrite (reindex (fun b : n.-tuple bool => wr x b)) /=; last first.
  exists (fun y => [tuple of map (fun t => y (p t)) (in_tuple (g_tgt g))]) => [b _|y].
  - apply: val_inj => /=; exact: rd_wr (size_tuple b).
  - rewrite inE => Hy; exact: wr_rd Hy.
rewrite -(agr_rd Axz); case: hu => _ _ <-; rewrite ?size_rd //.
rewrite [LHS](eq_bigl predT) => [|b]; last by rewrite agr_wr.
apply: eq_bigr => b _; rewrite !gkerE Cx Cz agr_wr (agr_trans _ (agr_wr x b)) 1?agr_sym //.
by rewrite !rd_wr ?size_tuple.
Qed.
End G.

Theorem unitary_matrix_gate (g : gate) : unitary_matrix g -> unitary_gate Lg g.
Proof. by move=> Hu p Hp; apply: gate_unitary. Qed.
End P.
