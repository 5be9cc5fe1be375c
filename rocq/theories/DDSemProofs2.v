(** Unitarity; soundness of skipping identical gates. *)
From Coq Require Import BinNums.
From mathcomp Require Import all_ssreflect all_fingroup all_algebra.
From Verif Require Import Criterion Schemes DDCheck DDSpec DDProofs DDProofs2 DDProofs3 Qubits QubitsProofs QubitsProofs2 DDSem DDSemProofs.
Set Implicit Arguments.
Unset Strict Implicit.
Unset Printing Implicit Defensive.
Import GRing.Theory Num.Theory.
Local Open Scope ring_scope.

Section P.
Variables (C : numClosedFieldType) (Lg : finType) (Ph : eqType).
Local Notation mat := (mat C Lg).
Local Notation Pm := (@Pm C Lg).
Local Notation gate := (gate C Ph).
Local Notation op := (op Ph gate).
Local Notation circuit := (circuit Ph Lg gate).
Local Notation xpkg := (@xpkg C Lg Ph).
Local Notation getDD := (getDD Ph Lg gate mat eq_op xpkg).
Local Notation trace := (trace eq_op xpkg).
Local Notation ops := (c_ops Ph Lg gate).
Local Notation keys := (c_keys Ph Lg gate).
Local Notation layout := (c_layout Ph Lg gate).

(** ** unitarity *)
Lemma unitary_comp_In (l : seq op) o : unitary_op Lg (OComp _ _ l) -> List.In o l -> unitary_op Lg o.
Proof. by elim: l => [|a l IH] //= [Ha Hl] [<-|Ho] //; apply: IH. Qed.
Lemma unitary_sem_ops (L : Ph -> Lg) (l : seq op) : (forall o, List.In o l -> unitary (sem_op L o)) -> unitary (sem_ops L l).
Proof.
elim: l => [|o r IH] H /=; first exact: unitary_1.
by apply: unitary_mul; [apply: IH => x Hx; apply: H; right | apply: H; left].
Qed.
Lemma unitary_sem (L : Ph -> Lg) (o : op) : unitary_op Lg o -> {in op_qubits o &, injective L} -> unitary (sem_op L o).
Proof.
elim/(@op_rect' Ph gate) : o => [g|a b|l IH] HU HL.
- exact: HU.
- exact: unitary_Pm.
- rewrite sem_comp; apply: unitary_sem_ops => o Ho; move/List.Forall_forall: IH => /(_ o Ho); apply.
  + exact: unitary_comp_In HU Ho.
  + by move=> a b Ha Hb; apply: HL; apply: In_mem_comp Ho _.
Qed.
Lemma unitary_realises (c : circuit) V : wf_circuit c -> unitary_circuit c -> realises c V -> unitary V.
Proof.
case=> Uk injL Hq _ HU [s [_ _ ->]]; apply: unitary_mul; first exact: unitary_Pm.
apply: unitary_sem_ops => o Ho; apply: unitary_sem; first exact: HU.
by move=> a b Ha Hb; apply: injL; apply: Hq Ho _.
Qed.

(** ** skipping *)
Lemma getDD_local inv (o : op) p p' : swap_free o = true -> {in op_qubits o, p =1 p'} -> (getDD inv o p).1 = (getDD inv o p').1.
Proof.
move: p p'; elim/(@op_rect' Ph gate) : o => [g|a b|l IH] // p p' HS HP.
- by rewrite /=; case: inv; rewrite (gmx_in HP).
- rewrite !getDD_comp /=; congr List.fold_left; move: HS HP => /=; elim: IH => [|o r Ho Hr IHr] //= /andP[S1 S2] HP.
  have E1 : (getDD inv o p).1 = (getDD inv o p').1 by apply: Ho => // q Hq; apply: HP; rewrite mem_cat Hq.
  have Q1 := swap_free_perm eq_op xpkg inv _ p S1; have Q2 := swap_free_perm eq_op xpkg inv _ p' S1.
  move: E1 Q1 Q2; case: (getDD inv o p) => [m a]; case: (getDD inv o p') => [m' a'] /= -> -> ->.
  have E : (trace inv r p).1 = (trace inv r p').1.
    by apply: IHr => // q Hq; apply: HP; rewrite mem_cat Hq orbT.
  by move: E; case: (trace inv r p); case: (trace inv r p') => /= ? ? ? ? ->.
Qed.

Lemma getDD_adj (o : op) p : swap_free o = true -> (getDD true o p).1 = adj (getDD false o p).1.
Proof.
move: p; elim/(@op_rect' Ph gate) : o => [g|a b|l IH] // p HS.
rewrite !getDD_comp /= !fold_left_foldl.
suff -> : (trace true l p).1 = map (@adj C _ _) (trace false l p).1 by rewrite prodr_acc mul1mx.
move: HS => /=; elim: IH => [|o r Ho Hr IHr] //= /andP[S1 S2].
have E1 := Ho p S1; have Q1 := swap_free_perm eq_op xpkg true _ p S1; have Q2 := swap_free_perm eq_op xpkg false _ p S1.
move: E1 Q1 Q2; case: (getDD true o p) => [m a]; case: (getDD false o p) => [m' a'] /= -> -> ->.
by have := IHr S2; case: (trace true r p); case: (trace false r p) => /= ? ? ? ? ->.
Qed.
Lemma getDD_unitary (o : op) p : swap_free o = true -> unitary_op Lg o -> {in op_qubits o &, injective p} -> unitary (getDD false o p).1.
Proof.
move: p; elim/(@op_rect' Ph gate) : o => [g|a b|l IH] // p HS HU HI; first exact: HU.
rewrite !getDD_comp /= !fold_left_foldl -/(prodl _).
have : forall o, List.In o l -> unitary (getDD false o p).1 /\ swap_free o = true.
  move=> o Ho; have HSo : swap_free o = true by move/List.forallb_forall: HS => /(_ o Ho).
  split=> //; move/List.Forall_forall: IH => /(_ o Ho); apply=> //; first exact: unitary_comp_In HU Ho.
  by move=> a b Ha Hb; apply: HI; apply: In_mem_comp Ho _.
elim: l {IH HS HU HI} => [|o r IHr] H /=; first exact: unitary_1.
have [U1 S1] := H o (or_introl erefl); have Q1 := swap_free_perm eq_op xpkg false _ p S1.
move: U1 Q1; case: (getDD false o p) => [m a] /= U1 ->.
have := IHr (fun o Ho => H o (or_intror Ho)); case: (trace false r p) => /= ms pf Um.
by rewrite prodl_cons; apply: unitary_mul.
Qed.

Variable geqb : gate -> gate -> bool.
Lemma gates_comp_In (l : seq op) o g : List.In o l -> List.In g (op_gates o) -> List.In g (op_gates (OComp _ _ l)).
Proof. by elim: l => [|a l IH] //= [->|Ho] Hg; apply/List.in_or_app; [left|right; apply: IH]. Qed.
Lemma op_eqb_getDD inv (o1 o2 : op) p : equals_exact_ops Lg geqb o1 o2 -> swap_free o1 = true -> swap_free o2 = true ->
  op_eqb Ph gate eq_op geqb o1 o2 = true -> (getDD inv o1 p).1 = (getDD inv o2 p).1.
Proof.
move: o2 p; elim/(@op_rect' Ph gate) : o1 => [g|a b|l IH] [g2|a2 b2|l2] p //.
- by move=> HE _ _ /= H; case: inv; rewrite (HE g g2) //=; auto.
- rewrite !getDD_comp => HE S1 S2 H; rewrite [LHS]/= [RHS]/=; congr List.fold_left; move: HE S1 S2 H => /=.
  elim: IH l2 => [|o r Ho Hr IHr] [|o2 r2] //= HE /andP[S1 S1'] /andP[S2 S2'] /andP[H1 H2].
  have HE1 : equals_exact_ops Lg geqb o o2 by move=> g h Hg Hh; apply: HE => /=; apply/List.in_or_app; left.
  have HE2 : equals_exact_ops Lg geqb (OComp _ _ r) (OComp _ _ r2) by move=> g h Hg Hh; apply: HE => /=; apply/List.in_or_app; right.
  have E1 := Ho _ p HE1 S1 S2 H1; have Q1 := swap_free_perm eq_op xpkg inv _ p S1; have Q2 := swap_free_perm eq_op xpkg inv _ p S2.
  move: E1 Q1 Q2; case: (getDD inv o p) => [m a]; case: (getDD inv o2 p) => [m' a'] /= -> -> ->.
  by have := IHr _ HE2 S1' S2' H2; case: (trace inv r p); case: (trace inv r2 p) => /= ? ? ? ? ->.
Qed.

(** skipping two operations that are the same on the same wires *)
Lemma skip_ok (o1 o2 : op) p1 p2 (f : mat) : equals_exact_ops Lg geqb o1 o2 -> swap_free o1 = true -> swap_free o2 = true ->
  op_eqb Ph gate eq_op geqb o1 o2 = true -> {in op_qubits o1, p1 =1 p2} -> {in op_qubits o1 &, injective p1} -> unitary_op Lg o1 ->
  is_scalar_mx f -> (getDD false o1 p1).1 *m f *m (getDD true o2 p2).1 = f.
Proof.
move=> HE S1 S2 H HP HI HU /is_scalar_mxP[w ->].
rewrite -(op_eqb_getDD true p2 HE S1 S2 H) -(getDD_local true S1 HP) (getDD_adj _ S1) scalar_mxC -mulmxA.
by rewrite (getDD_unitary S1 HU HI) mulmx1.
Qed.

(** the tracked permutation stays injective *)
Lemma tracked_inj (c : circuit) pre post : wf_circuit c -> ops c = pre ++ post ->
  {in keys c &, injective (trace false pre (layout c)).2}.
Proof.
case=> Uk injL Hq _ E.
have HF : List.Forall (op_ok (layout c) (mem (keys c))) pre.
  apply/List.Forall_forall => o Ho; apply: op_okP => [|q Hq']; first exact: injL.
  by apply: (Hq o) => //; rewrite E; apply/List.in_or_app; left.
have T0 : tracks (layout c) (mem (keys c)) (layout c) 1 by move=> q _; rewrite perm1.
have [s T _] := trace_ok HF T0.
by move=> a b Ha Hb; rewrite !T // => /perm_inj; apply: injL.
Qed.

Lemma placement_skips size (c1 c2 : circuit) : wf_circuit c1 -> unitary_circuit c1 -> equals_exact geqb c1 c2 ->
  same_placement geqb c1 c2 -> skips_ok eq_op xpkg (@g_swap C Ph) (alt_chk size) geqb c1 c2.
Proof.
move=> W1 U1 HE HP pre1 o1 post1 pre2 o2 post2 s E1 E2 H Hid N1 N2; cbv zeta.
have [S1 S2 P] := HP _ _ _ _ _ _ E1 E2 H N1 N2; split=> //; split=> //=.
have I1 : List.In o1 (ops c1) by rewrite E1; apply/List.in_or_app; right; left.
have I2 : List.In o2 (ops c2) by rewrite E2; apply/List.in_or_app; right; left.
rewrite trace_perm; apply: skip_ok => //; [exact: HE| |exact: U1].
have [_ _ Hq _] := W1; move=> a b Ha Hb; apply: (tracked_inj W1 E1); exact: Hq I1 _.
Qed.
Lemma swap_free_trace inv (l : seq op) p : (forall o, List.In o l -> swap_free o = true) -> (trace inv l p).2 = p.
Proof.
elim: l p => [|o r IH] p H //=; have := swap_free_perm eq_op xpkg inv _ p (H o (or_introl erefl)).
case: (getDD inv o p) => [m a] /= ->; have := IH p (fun o Ho => H o (or_intror Ho)); by case: (trace inv r p).
Qed.
Lemma elided_placement (c1 c2 : circuit) : elided c1 -> elided c2 -> same_layout c1 c2 -> same_placement geqb c1 c2.
Proof.
move=> S1 S2 HL pre1 o1 post1 pre2 o2 post2 E1 E2 H N1 N2.
have I1 : List.In o1 (ops c1) by rewrite E1; apply/List.in_or_app; right; left.
have I2 : List.In o2 (ops c2) by rewrite E2; apply/List.in_or_app; right; left.
split; [exact: S1|exact: S2|].
rewrite !swap_free_trace; first by move=> q Hq; apply: (HL o1).
- by move=> o Ho; apply: S2; rewrite E2; apply/List.in_or_app; left.
- by move=> o Ho; apply: S1; rewrite E1; apply/List.in_or_app; left.
Qed.
End P.
