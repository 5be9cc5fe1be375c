(** Counterexamples for C69. *)
From Coq Require Import BinNums NArith QArith.
From mathcomp Require Import all_ssreflect all_fingroup all_algebra.
From Verif Require Import Criterion Config SeqFlow SeqSpec VerdictSpec VerdictProofs Schemes DDCheck DDSpec DDProofs Qubits QubitsProofs QubitsProofs2
  DDSem DDSemProofs DDSemProofs2 DDSemProofs3 DDSemProofs4 DDSemProofs5 DDMain DDFlow DDFlowProofs DDDemo DDDemoProofs DDDemoProofs2 DDDemoProofs3
  Choice PartialEq PartialEqProofs PropPartial PartialFlow PartialFlowProofs PartialDemo PartialDemoProofs.
Set Implicit Arguments.
Unset Strict Implicit.
Unset Printing Implicit Defensive.
Import GRing.Theory Num.Theory.
Local Open Scope ring_scope.

Section P.
Variable C : numClosedFieldType.
Local Notation Lg := bool_finType.
Local Notation gate := (gate C bool_eqType).
Local Notation mat := (mat C Lg).
Local Notation basis := (basis Lg).
Local Notation realises := (@realises C Lg bool_eqType).
Local Notation st := DDDemoProofs.st.

(** ** qubit 0 is garbage in the first circuit only; both circuits apply X to it *)
Definition unread_circuit : circuit bool_eqType Lg gate := mkCircuit bool bool gate [:: X C false] [:: false; true] id [:: (true, true)].
Definition read_circuit : circuit bool_eqType Lg gate := qc2 id id [:: X C false].
Lemma unread_wf : wf_circuit (Lg := Lg) unread_circuit.
Proof.
split=> //=; first by move=> o q _ _; rewrite !inE; case: q.
by split=> // v; rewrite !inE => /eqP ->.
Qed.
Lemma read_wf : wf_circuit (Lg := Lg) read_circuit. Proof. exact: qc2_wf. Qed.
Lemma unread_unitary : unitary_circuit (Lg := Lg) unread_circuit.
Proof. by move=> o [<-|[]]; exact: xgate_unitary. Qed.
Lemma read_unitary : unitary_circuit (Lg := Lg) read_circuit.
Proof. by move=> o [<-|[]]; exact: xgate_unitary. Qed.
Lemma unread_V V : realises unread_circuit V -> V = fm C (flip false).
Proof.
case=> s [Ho Hu ->]; rewrite /= mul1mx (_ : s = 1%g); first by rewrite Pm_1 mul1mx; exact: X_fm.
have S1 : s true = true by apply: (Ho true true); rewrite inE.
apply/permP => -[]; rewrite perm1 //.
by case E : (s false) => //; move: (perm_inj (etrans S1 (esym E))).
Qed.
Lemma read_V V : realises read_circuit V -> V = fm C (flip false).
Proof. by move/qc2_V => -> //=; rewrite mul1mx; exact: X_fm. Qed.
Lemma entry_red G x y : entry (reduce_mx G (fm C (flip false))) x y = (zeros G x && same_out G (flip false y) x)%:R.
Proof.
rewrite entry_reduce; case: ifP => // _.
rewrite (_ : fm C (flip false) *m ket C y = ket C (flip false y)); last first.
  apply: vecP => z; rewrite amp_mul_ket amp_ket entry_fm; congr (_%:R).
  rewrite eq_sym (stE y) (stE z) !flip_st !st_eq; by case: (z false); case: (y false); case: (z true); case: (y true).
by rewrite prob_ket; case: same_out; rewrite ?sqrtC1 ?sqrtC0.
Qed.
Lemma red1 a b c d : entry (reduce_mx [set false] (fm C (flip false))) (st a b) (st c d) = (~~ a && (b == d))%:R.
Proof.
rewrite entry_red; congr (_%:R); congr andb.
- by apply/forallP/idP => [/(_ false)|H q]; rewrite ?inE /= ?ffunE //; case: q; rewrite ?inE //= !ffunE.
- rewrite flip_st; apply/forallP/eqP => [/(_ true)|E q]; first by rewrite inE /= !ffunE => /eqP.
  by case: q; rewrite inE //= !ffunE E.
Qed.
Lemma red0 a b c d : entry (reduce_mx set0 (fm C (flip false))) (st a b) (st c d) = ((a != c) && (b == d))%:R.
Proof.
rewrite entry_red (_ : zeros _ _); last by apply/forallP => q; rewrite in_set0.
rewrite flip_st andTb; congr (nat_of_bool _)%:R; apply/forallP/andP => [H|[Na /eqP E] q].
- move: (H false) (H true); rewrite !in_set0 /= !ffunE => /eqP <- /eqP <-; split=> //; by case: (c).
- by rewrite in_set0 /=; case: q; rewrite !ffunE ?E //; move: Na; case: (a); case: (c).
Qed.
Lemma one_sided (isClose : mat -> bool) (sameNode sameWeight : mat -> mat -> bool) :
  closeness_test isClose -> @same_node_test C [lmodType C of mat] sameNode ->
  con_check isClose sameNode sameWeight (reduce_mx [set false] (fm C (flip false)), reduce_mx set0 (fm C (flip false))) = NotEquivalent.
Proof.
move=> hc hn; rewrite /con_check.
set M1 := reduce_mx [set false] _; set M2 := reduce_mx set0 _.
have N1 : sameNode M1 M2 = false.
  apply/negP => /hn[w w0 E]; have := congr1 (fun M : mat => entry M (st true false) (st false false)) E.
  by rewrite /M1 red1 /= entry_scale /M2 red0 /= mulr1 => /esym/eqP; rewrite (negbTE w0).
have off (M : mat) : entry M (st false false) (st true false) = 1 -> isClose M = false.
  by move=> E; apply/negP => /hc.1[D _ _]; move: (D (st false false) (st true false)); rewrite st_eq E /= => /(_ erefl)/eqP; rewrite oner_eq0.
rewrite N1 (off M1) /=; last by rewrite red1.
have E12 : entry (M1 *m adj M2) (st false false) (st true false) = 1.
  by rewrite entry_mul sum_basis2 /M1 /M2 !red1 !entry_adj !red0 /= !conjC_nat /= ?mulr0 ?mul0r ?mulr1 ?add0r ?addr0.
rewrite (off _ E12); case E: (isClose M2) => //=.
Qed.
Lemma one_sided_runs (q : package C Lg bool_eqType) (isClose : mat -> bool) (s : schemes) (eps : C) (Stim Gen : Type) (stim : Stim -> vec C Lg) (e : env Stim Gen) fuel pf m :
  exact_package q -> partial_test set0 isClose -> good_schemes q unread_circuit read_circuit s ->
  describes_partial q isClose s false unread_circuit read_circuit set0 set0 [set false] set0 eps stim e ->
  undisturbed fuel e m -> runSimulationChecker (exec (m_cfg m)) = false ->
  exists2 r, SeqFlow.run fuel pf e m = Returned r &
    (runAlternatingChecker (exec (m_cfg m)) = true -> r_eq (m_res r) = Equivalent \/ r_eq (m_res r) = EquivalentUpToGlobalPhase) /\
    (runAlternatingChecker (exec (m_cfg m)) = false -> runConstructionChecker (exec (m_cfg m)) = true -> r_eq (m_res r) = NotEquivalent).
Proof.
move=> hq hp hs hd [x1 [x2 [x3 [x4 [l [g [x5 [x6 [x7 x8]]]]]]]]] ns.
have [hc hw hn hnw] := hq; have [[ha hcn hsm] [hcond nlc nls]] := hs.
have [ch [ya Ya] [yc Yc] Ys] := hd.
have [V1 [ms1 [R1 K1]]] := computes_ex false unread_wf; have [V2 [ms2 [R2 K2]]] := computes_ex false read_wf.
have [y Y] := con_partial_never (q_equals q) (q_view q) K1 K2 set0 set0 [set false] set0 (con_check (q_close q) (q_nodeM q) (q_weightM q)) NoInformation hcn nlc.
have EC : e_con e = MNotEquivalent.
  have := verdict_inj2 (etrans (esym Yc) Y); rewrite proj0_0 !mulmx1 (unread_V R1) (read_V R2) (one_sided _ hc hn); by case: (e_con e).
have EA : e_alt e <> MNotEquivalent.
  have [y' Y' _] : exists2 y, alt_run (q_equals q) (q_view q) false (q_size q) (DDFlow.s_alt s) never unread_circuit read_circuit (set0 :&: set0) (alt_check isClose (q_weight q)) NoInformation
                      = RVerdict _ _ _ _ _ (alt_check isClose (q_weight q) (V1 *m proj0 C (set0 :&: set0) *m adj V2)) y & x_s _ _ _ _ _ y = V1 *m proj0 C (set0 :&: set0) *m adj V2.
    apply: (alt_never (q_view q) K1 K2) => // L; move: hcond; rewrite /alt_conditions L => //.
    by case=> HE HP; apply placement_skips; [exact: unread_wf|exact: unread_unitary|exact: HE|exact: HP].
  have := verdict_inj (etrans (esym Ya) Y').
  have -> : V1 *m proj0 C (set0 :&: set0) *m adj V2 = 1%:M.
    by rewrite setIid proj0_0 mulmx1 (unread_V R1) -(read_V R2); exact: (unitary_realises read_wf read_unitary R2).
  rewrite /alt_check (_ : isClose _); last first.
    apply/hp => x y1 N; rewrite /entry mxE (inj_eq enum_rank_inj); case: eqP N => // -> ; by rewrite same_out_refl.
  by case: ifP; case: (e_alt e).
have [||r [Rr ER]] := verdict_agree fuel pf e m l g x1 x2 x3 x4 x5 x6 x7; try by rewrite ns.
exists r => //; rewrite ER /= /VerdictSpec.table; split=> [->|-> ->]; last by rewrite EC.
by case: (e_alt e) EA => //; auto.
Qed.
End P.
