(** Counterexamples on two qubits. *)
From Coq Require Import BinNums NArith.
From mathcomp Require Import all_ssreflect all_fingroup all_algebra.
From Verif Require Import Criterion Schemes DDCheck DDSpec DDProofs DDProofs5 Qubits QubitsProofs GateProofs QubitsProofs2 DDSem DDSemProofs
  DDSemProofs2 DDSemProofs3 DDSemProofs4 DDSemProofs5 DDMain DDDemo DDDemoProofs.
Set Implicit Arguments.
Unset Strict Implicit.
Unset Printing Implicit Defensive.
Import GRing.Theory Num.Theory.
Local Open Scope ring_scope.

Section P.
Variable C : numClosedFieldType.
Local Notation gate := (gate C bool_eqType).
Local Notation basis := (basis bool_finType).
Local Notation mat := (mat C bool_finType).
Local Notation proj0 := (@proj0 C bool_finType).
Local Notation realises := (@realises C bool_finType bool_eqType).
Local Notation X q := (X C q).
Local Notation CX c t := (CX C c t).
Local Notation SWAP := (SWAP C).

Lemma qc2_V L O (l : seq (op bool gate)) V : L =1 O -> involutive L -> realises (qc2 L O l) V -> V = sem_ops (L : bool_eqType -> bool_finType) l.
Proof.
move=> E I /qc2_realises[s Hs ->]; rewrite (_ : s = 1%g) ?Pm_1 ?mul1mx //; apply: id_perm => i.
by rewrite -[i in LHS](I i) Hs -E I.
Qed.
Lemma negb_inj : injective negb. Proof. exact: inv_inj negbK. Qed.

(** ** skipping gates with different tracked permutations *)
Section Skip.
Variables (isClose : mat -> bool) (weight : mat -> C).
Hypotheses (hc : closeness_test isClose) (hw : weight_of weight).
Variables (geqb : gate -> gate -> bool) (view : op bool gate -> opview) (size : mat -> N) (sch : appscheme) (old : criterion).
Hypotheses (hg : geqb (xgate C false) (xgate C false)) (nl : is_lookahead sch = false).
Let c1 := qc2 id id [:: X false].
Let c2 := qc2 negb negb [:: X false].
Lemma one_diag : diag_const (proj0 set0).
Proof.
rewrite proj0_0; split.
- by move=> x y N; rewrite entry_1 (negbTE N).
- by rewrite entry_1 eqxx oner_eq0.
- by move=> x; right; rewrite !entry_1 !eqxx.
Qed.
Lemma one_verdict : alt_check isClose weight (proj0 set0) = Equivalent.
Proof.
rewrite /alt_check (_ : isClose _ = true); last by rewrite -[proj0 set0]scale1r; apply: hc.2; exact: oner_neq0.
by rewrite (hw one_diag) proj0_0 entry_1 eqxx eqxx.
Qed.
Lemma skip_wrong :
  (exists y, alt_run geqb view false size sch never c1 c2 set0 (alt_check isClose weight) old = RVerdict _ _ _ _ _ Equivalent y) /\
  (forall V1 V2, realises c1 V1 -> realises c2 V2 -> forall w, ~ agree_up_to set0 w V1 V2).
Proof.
split.
- rewrite -one_verdict; rewrite /alt_run; eapply run_skip with (g := xgate C false) (h := xgate C false) (p1 := id) (p2 := negb) (s1 := proj0 set0) => //.
  by rewrite /= proj0_0 scalar_mx_is_scalar.
- move=> V1 V2 /qc2_V -> // /qc2_V -> //; last exact: negbK.
  rewrite /agree_up_to /= !mul1mx !X_fm !proj0_0 !mulmx1 => w E.
  have /= := congr1 (fun A => entry A (st false false) (st true false)) E.
  rewrite entry_scale !entry_fm !flip_st !st_eq /= mulr0 => /eqP; by rewrite oner_eq0.
Qed.
End Skip.

(** ** SWAPs inside compound operations and the lookahead scheme *)
Section Hidden.
Variables (isClose : mat -> bool) (weight : mat -> C).
Hypotheses (hc : closeness_test isClose) (hw : weight_of weight).
Variables (geqb : gate -> gate -> bool) (view : op bool gate -> opview) (size : mat -> N) (old : criterion).
Let c1 := qc2 id id [:: CX false true].
Let c2 := qc2 id id [:: Comp [:: SWAP; CX false true]].
(** the size of CX is at most the size of CX with exchanged qubits *)
Hypothesis sizes : (size (fm C (cflip false true)) <= size (fm C (cflip true false)))%num.
Lemma cflipK c t : c != t -> involutive (cflip c t).
Proof. by case: c; case: t => // _ x; rewrite (stE x) !cflip_st; case: (x false); case: (x true); rewrite /= !cflip_st. Qed.
Lemma adj_cflip c t : c != t -> adj (fm C (cflip c t)) = fm C (cflip c t).
Proof.
move=> H; apply: mxP => x y; rewrite entry_adj !entry_fm conjC_nat; congr (nat_of_bool _)%:R.
by apply/eqP/eqP => ->; rewrite cflipK.
Qed.
Lemma fm_K f : involutive f -> fm C f *m fm C f = 1%:M.
Proof. by move=> H; rewrite fm_comp; apply: mxP => x y; rewrite entry_fm entry_1 H eq_sym. Qed.
Lemma hidden_wrong :
  (exists y, alt_run geqb view false size SLookahead never c1 c2 set0 (alt_check isClose weight) old = RVerdict _ _ _ _ _ Equivalent y) /\
  (forall V1 V2, realises c1 V1 -> realises c2 V2 -> forall w, ~ agree_up_to set0 w V1 V2).
Proof.
split.
- have -> : Equivalent = alt_check isClose weight
     (gmx (cxgate C false true) (id : bool_eqType -> bool_finType) *m proj0 set0 *m
       (1%:M *m 1%:M *m adj (gmx (cxgate C false true) (swap_at bool bool eq_op (swap_at bool bool eq_op (id : bool_eqType -> bool_finType) false true) false true)))).
    rewrite !CX_fm /= !mul1mx proj0_0 mulmx1 adj_cflip // fm_K; last exact: cflipK.
    by rewrite -(proj0_0 C) one_verdict.
  rewrite /alt_run; eapply run_lookahead; try reflexivity; first by [].
  change (size (gmx (cxgate C false true) (id : bool_eqType -> bool_finType) *m proj0 set0) <= size (proj0 set0 *m (1%:M *m 1%:M *m adj (gmx (cxgate C false true) (swap_at bool bool eq_op (id : bool_eqType -> bool_finType) false true)))))%num.
  rewrite /= !proj0_0 !mulmx1 !mul1mx !CX_fm /= adj_cflip //; exact: sizes.
- move=> V1 V2 /qc2_V -> // /qc2_V -> //.
  rewrite /agree_up_to /= !mul1mx !CX_fm !proj0_0 !mulmx1 => w E.
  have /= := congr1 (fun A => entry A (st false true) (st false true)) E.
  rewrite entry_scale Pm_fm fm_comp !entry_fm !cflip_st /= along_st tpermL tpermR /= !st_eq /= mulr0 => /eqP; by rewrite oner_eq0.
Qed.
End Hidden.

(** ** circuits of gates *)
Lemma qc2_elided L O (gs : seq gate) : elided (Lg := bool_finType) (Ph := bool_eqType) (qc2 L O (map (OGate bool gate) gs)).
Proof. by move=> o /= /List.in_map_iff[g [<- _]]. Qed.
Lemma qc2_placement L O O' (gs gs' : seq gate) geqb :
  same_placement (Lg := bool_finType) (Ph := bool_eqType) geqb (qc2 L O (map (OGate bool gate) gs)) (qc2 L O' (map (OGate bool gate) gs')).
Proof. by apply: elided_placement; [exact: qc2_elided|exact: qc2_elided|]. Qed.
Lemma negb_perm (s : {perm bool}) (x : basis) : (forall i, s i = ~~ i) -> along s x = st (x true) (x false).
Proof. by move=> H; rewrite (stE x) along_st !H /= !ffunE. Qed.

(** ** different ancillaries *)
Section Differ.
Variables (isClose : mat -> bool) (weight : mat -> C) (sameNode sameWeight : mat -> mat -> bool).
Hypotheses (hc : closeness_test isClose).
Variables (geqb : gate -> gate -> bool) (view : op bool gate -> opview) (size : mat -> N) (sch : appscheme) (old : criterion).
Let c1 := qc2 id id [:: X true].
Let c2 := qc2 id id [:: CX false true; X true].
Hypotheses (hg : equals_exact (Lg := bool_finType) geqb c1 c2) (hs : scheme_for c1 c2 sch) (nl : is_lookahead sch = false).
Let A1 : {set bool_finType} := [set false].
Lemma c1_unitary : unitary_circuit (Lg := bool_finType) c1.
Proof. by move=> o [<-|[]]; exact: xgate_unitary. Qed.
Lemma differ_wrong :
  (exists c y, con_run geqb view false sch never c1 c2 A1 set0 (con_check isClose sameNode sameWeight) old = RVerdict _ _ _ _ _ c y /\
    (c = Equivalent \/ c = EquivalentUpToGlobalPhase)) /\
  (exists y, alt_run geqb view false size sch never c1 c2 (A1 :&: set0) (alt_check isClose weight) old = RVerdict _ _ _ _ _ NotEquivalent y).
Proof.
have W1 : wf_circuit (Lg := bool_finType) c1 by apply: qc2_wf.
have W2 : wf_circuit (Lg := bool_finType) c2 by apply: qc2_wf.
have [V1 [V2 [R1 R2 H]]] := runs_compute false W1 W2 c1_unitary.
have [HA HC _] := H geqb view sch old hs.
have E1 : V1 = fm C (flip true) by rewrite (qc2_V _ _ R1) //= mul1mx X_fm.
have E2 : V2 = fm C (fun x => cflip false true (flip true x)) by rewrite (qc2_V _ _ R2) //= mul1mx X_fm CX_fm fm_comp.
split.
- have [y Y _] := HC A1 set0 (con_check isClose sameNode sameWeight) nl; exists (con_check isClose sameNode sameWeight (V1 *m proj0 A1, V2 *m proj0 set0)), y.
  split=> //; rewrite /con_check; case: ifP => _; first by case: ifP; [left|right].
  have N1 : isClose (V1 *m proj0 A1) = false.
    apply/negP => /hc.1[D _ _]; have := D (st false true) (st false false); rewrite st_eq /= => /(_ isT) /eqP.
    rewrite E1 fm_mul flip_st entry_proj0 eqxx /= (_ : [forall _ in _, _] = true) ?oner_eq0 //.
    by apply/forallP => q; apply/implyP; rewrite inE => /eqP ->; rewrite ffunE.
  have N2 : isClose (V2 *m proj0 set0) = false.
    apply/negP => /hc.1[D _ _]; have := D (st false true) (st false false); rewrite st_eq /= => /(_ isT) /eqP.
    by rewrite E2 proj0_0 mulmx1 entry_fm flip_st cflip_st /= eqxx oner_eq0.
  rewrite N1 N2 /= (_ : isClose _ = true); first by case: ifP; [left|right].
  rewrite (_ : _ *m adj _ = 1 *: proj0 A1); first by apply: hc.2; exact: oner_neq0.
  rewrite scale1r proj0_0 mulmx1 E1 E2; apply: mxP => x z; rewrite -mulmxA fm_mul entry_projL entry_adj entry_fm conjC_nat entry_proj0.
  have -> : [forall q in A1, ~~ flip true x q] = ~~ x false.
    apply/forallP/idP => [/(_ false)|N q]; first by rewrite inE eqxx ffunE.
    by apply/implyP; rewrite inE => /eqP ->; rewrite ffunE.
  have -> : [forall q in A1, ~~ x q] = ~~ x false.
    by apply/forallP/idP => [/(_ false)|N q]; [rewrite inE eqxx|apply/implyP; rewrite inE => /eqP ->].
  rewrite -natrM mulnb; congr (nat_of_bool _)%:R; rewrite (stE x) (stE z) !flip_st cflip_st !ffunE.
  by case: (x false); case: (x true); case: (z false); case: (z true); rewrite /= ?st_eq.
- have [|y Y _] := HA size (A1 :&: set0) (alt_check isClose weight).
    by rewrite /alt_conditions nl; split=> //; exact: (@qc2_placement id id id [:: xgate C true] [:: cxgate C false true; xgate C true]).
  exists y; rewrite Y /alt_check setI0 proj0_0 mulmx1 (_ : isClose _ = false) //.
  apply/negP => /hc.1[D _ _]; have := D (st true false) (st true true); rewrite st_eq /= => /(_ isT) /eqP.
  by rewrite E1 fm_mul entry_adj E2 entry_fm !flip_st cflip_st /= eqxx conjC_nat oner_eq0.
Qed.
End Differ.

(** ** ancillaries whose outputs are exchanged *)
Section Outputs.
Variables (isClose : mat -> bool) (weight : mat -> C).
Hypotheses (hc : closeness_test isClose).
Variables (geqb : gate -> gate -> bool) (view : op bool gate -> opview) (size : mat -> N) (sch : appscheme) (old : criterion).
Let c1 := qc2 id id [:: X true].
Let c2 := qc2 id negb [:: X false].
Hypotheses (hg : equals_exact (Lg := bool_finType) geqb c1 c2) (hs : scheme_for c1 c2 sch) (nl : is_lookahead sch = false).
Lemma outputs_wrong :
  [/\ can_handle (Lg := bool_finType) c1 c2 setT setT,
      exists y, alt_run geqb view false size sch never c1 c2 setT (alt_check isClose weight) old = RVerdict _ _ _ _ _ NotEquivalent y &
      forall V1 V2, realises c1 V1 -> realises c2 V2 -> agree_up_to setT 1 V1 V2].
Proof.
have W1 : wf_circuit (Lg := bool_finType) c1 by apply: qc2_wf.
have W2 : wf_circuit (Lg := bool_finType) c2 by apply: qc2_wf => //; exact: negb_inj.
have E1 V1 : realises c1 V1 -> V1 = fm C (flip true) by move=> R1; rewrite (qc2_V _ _ R1) //= mul1mx X_fm.
have E2 V2 : realises c2 V2 -> V2 = fm C (fun x => flip false (st (x true) (x false))).
  move=> /qc2_realises[s Hs ->]; rewrite /= mul1mx X_fm Pm_fm fm_comp; apply: mxP => x y; rewrite !entry_fm negb_perm //.
have ST (x : basis) : [forall q in [set: bool_finType], ~~ x q] = ~~ x false && ~~ x true.
  apply/forallP/andP => [N|[N1 N2] q]; last by rewrite inE; case: q.
  by split; [have := N false|have := N true]; rewrite inE.
split.
- apply/forallP => q; apply/implyP => _; by case: q.
- have [V1 [V2 [R1 R2 H]]] := runs_compute false W1 W2 c1_unitary.
  have [HA _ _] := H geqb view sch old hs.
  have [|y Y _] := HA size setT (alt_check isClose weight).
    by rewrite /alt_conditions nl; split=> //; exact: (@qc2_placement id id negb [:: xgate C true] [:: xgate C false]).
  exists y; rewrite Y /alt_check (_ : isClose _ = false) //; apply/negP => /hc.1[_ N _]; move: N; apply/negP; rewrite negbK.
  rewrite (E1 _ R1) (E2 _ R2) -mulmxA fm_mul entry_projL ST (stE (basis0 _)) flip_st !ffunE /= mul0r //.
- move=> V1 V2 /E1 -> /E2 ->; rewrite /agree_up_to scale1r; apply: mxP => x z; rewrite !fm_mul !entry_proj0 !ST.
  congr (nat_of_bool _)%:R; rewrite (stE x) (stE z) !flip_st !ffunE /= !st_eq.
  by case: (x false); case: (x true); case: (z false); case: (z true).
Qed.
End Outputs.
End P.
