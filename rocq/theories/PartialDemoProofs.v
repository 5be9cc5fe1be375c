(** Facts about the circuits of PartialDemo.v. *)
From Coq Require Import BinNums.
From mathcomp Require Import all_ssreflect all_fingroup all_algebra.
From Verif Require Import Criterion Schemes DDCheck DDSpec DDProofs Qubits QubitsProofs GateProofs QubitsProofs2 DDSem DDSemProofs
  DDSemProofs2 DDSemProofs3 DDSemProofs4 DDSemProofs5 DDMain DDFlow DDDemo DDDemoProofs DDDemoProofs2 DDDemoProofs3 PartialEq PartialEqProofs PartialDemo.
Set Implicit Arguments.
Unset Strict Implicit.
Unset Printing Implicit Defensive.
Import GRing.Theory Num.Theory.
Local Open Scope ring_scope.

Section P.
Variable C : numClosedFieldType.
Lemma demo_partial_test (Lg : finType) (G : {set Lg}) : partial_test G (@demo_partial C Lg G).
Proof.
move=> F; split=> [/forallP H x y N|H].
- by move/forallP: (H x) => /(_ y); rewrite (negbTE N) => /eqP.
- by apply/forallP => x; apply/forallP => y; case E : (same_out G x y) => //=; rewrite H ?E.
Qed.

(** 9/25 + 16/25 = 1 *)
Lemma pyth : (3%:R / 5%:R) * (3%:R / 5%:R) + (4%:R / 5%:R) * (4%:R / 5%:R) = 1 :> C.
Proof.
by rewrite !mulf_div -mulrDl -!natrM -natrD divff // pnatr_eq0.
Qed.
Lemma creal (m n : nat) : (m%:R / n%:R : C)^* = m%:R / n%:R.
Proof. by rewrite rmorphM fmorphV !rmorph_nat. Qed.

(** ** R against R Z *)
Section Rot.
Local Notation basis := (basis bool_finType).
Local Notation mat := (mat C bool_finType).
Local Notation realises := (@realises C bool_finType bool_eqType).
Lemma rmat_unitary (a c : seq bool) : size a = 1%N -> size c = 1%N ->
  \sum_(b : 1.-tuple bool) rmat C a b * (rmat C c b)^* = (a == c)%:R.
Proof.
case: a => [|a [|? ?]] // _; case: c => [|c [|? ?]] // _.
rewrite (sum1tuple (fun b => rmat C [:: a] b * (rmat C [:: c] b)^* )) /rmat.
by case: a; case: c; rewrite /= ?rmorphN ?creal ?mulrNN ?mulrN ?mulNr ?pyth // ?[RHS]/=;
  rewrite ?(addrC (4%:R / 5%:R * _)) ?pyth // ?(mulrC (3%:R / 5%:R)) ?subrr ?addNr.
Qed.
Lemma zmat_unitary (a c : seq bool) : size a = 1%N -> size c = 1%N ->
  \sum_(b : 1.-tuple bool) zmat C a b * (zmat C c b)^* = (a == c)%:R.
Proof.
case: a => [|a [|? ?]] // _; case: c => [|c [|? ?]] // _.
rewrite (sum1tuple (fun b => zmat C [:: a] b * (zmat C [:: c] b)^* )) /zmat.
by case: a; case: c; rewrite /= ?rmorphN ?conjC1 ?conjC0 ?mulrNN ?mulr0 ?mul0r ?mulr1 ?addr0 ?add0r.
Qed.
Lemma rgate_unitary q : unitary_gate bool_finType (rgate C q).
Proof. by apply: unitary_matrix_gate; split=> //=; exact: rmat_unitary. Qed.
Lemma zgate_unitary q : unitary_gate bool_finType (zgate C q).
Proof. by apply: unitary_matrix_gate; split=> //=; exact: zmat_unitary. Qed.
Definition R : mat := gmx (rgate C true) id.
Definition Z : mat := gmx (zgate C true) id.
Lemma rot_V V : realises (rot_circuit C) V -> V = R.
Proof. by move/qc2_V => -> //=; rewrite mul1mx. Qed.
Lemma zrot_V V : realises (zrot_circuit C) V -> V = R *m Z.
Proof. by move/qc2_V => -> //=; rewrite mul1mx. Qed.
Lemma R_unitary : unitary R. Proof. exact: rgate_unitary. Qed.
Lemma Z_unitary : unitary Z. Proof. exact: zgate_unitary. Qed.
Lemma off_true (x y : basis) : [forall q, (q \notin [:: true]) ==> (x q == y q)] = (x false == y false).
Proof.
apply/forallP/idP => [/(_ false)|H q]; first by [].
by case: q.
Qed.
Lemma entry_R x y : entry R x y = if x false == y false then rmat C [:: x true] [:: y true] else 0.
Proof. by rewrite entry_mx /gker /= off_true. Qed.
Lemma entry_Z x y : entry Z x y = if x == y then (if x true then -1 else 1) else 0.
Proof.
rewrite entry_mx /gker /= off_true /zmat /=.
have -> : (x == y) = (x false == y false) && ([:: x true] == [:: y true]).
  by rewrite {1}(stE x) {1}(stE y) st_eq eqseq_cons eqxx andbT.
by case: (x false == y false).
Qed.
Lemma entry_RZ x y : entry (R *m Z) x y = entry R x y * (if y true then -1 else 1).
Proof.
rewrite entry_mul (bigD1 y) //= entry_Z eqxx big1 ?addr0 // => z Nz.
by rewrite entry_Z (negbTE Nz) mulr0.
Qed.
Lemma rot_same_on_basis A (G : {set bool_finType}) : same_on_basis A G R (R *m Z).
Proof.
move=> y _ m; rewrite !prob_col; apply: eq_bigr => x _; rewrite entry_RZ normrM; case: (y true); by rewrite ?normrN normr1 mulr1.
Qed.
Lemma sum_basis2 (F : basis -> C) : \sum_x F x = (F (st true true) + F (st true false)) + (F (st false true) + F (st false false)).
Proof.
rewrite (reindex (fun p : bool * bool => st p.1 p.2)) /=; last first.
  exists (fun x : basis => (x false, x true)) => [[a b] _|x _]; first by rewrite !ffunE.
  by rewrite -stE.
by rewrite -(pair_bigA _ (fun a b => F (st a b))) /= !big_bool.
Qed.
Lemma rot_not_pe : ~ partially_equivalent set0 [set false] R (R *m Z).
Proof.
pose phi := R *m ket C (st false false).
move/(_ phi); rewrite proj0_0 mul1mx (inner_unitary _ _ R_unitary) ket_unit => /(_ erefl erefl (st false true)).
have AR x : amp (R *m phi) x = \sum_y entry R x y * entry R y (st false false).
  by rewrite amp_mul; apply: eq_bigr => y _; rewrite amp_mul_ket.
have AZ x : amp (R *m Z *m phi) x = \sum_y entry (R *m Z) x y * entry R y (st false false).
  by rewrite amp_mul; apply: eq_bigr => y _; rewrite amp_mul_ket.
have -> : prob [set false] (R *m Z *m phi) (st false true) = 0.
  apply: big1 => x /forallP /(_ true); rewrite inE /= ffunE => /eqP Hx.
  rewrite (_ : amp _ x = 0) ?normr0 ?expr0n //.
  rewrite AZ sum_basis2 !entry_RZ !entry_R !ffunE /= Hx /rmat /=; case: (x false) => /=; rewrite ?mul0r ?mulr0 ?addr0 ?add0r // !mulr1 mulrN1 mulNr.
  by rewrite mulrC addNr.
move/prob0 => /(_ (st false true) (same_out_refl _ _)); rewrite AR sum_basis2 !entry_R !ffunE /= /rmat /= ?mul0r ?mulr0 ?addr0 ?add0r => /eqP.
by rewrite Order.POrderTheory.gt_eqF // addr_gt0 // mulr_gt0 // divr_gt0 // ltr0n.
Qed.
End Rot.

(** ** RXX with either ancillary *)
Section XX.
Notation T3 := [finType of option bool].
Notation E3 := [eqType of option bool].
Local Notation basis := (basis T3).
Local Notation mat := (mat C T3).
Local Notation realises := (@realises C T3 E3).
Lemma sum2tuple (F : seq bool -> C) : \sum_(b : 2.-tuple bool) F b =
  (F [:: true; true] + F [:: true; false]) + (F [:: false; true] + F [:: false; false]).
Proof.
rewrite (reindex (fun p : bool * bool => [tuple p.1; p.2])) /=; last first.
  exists (fun t : 2.-tuple bool => (tnth t ord0, tnth t (lift ord0 ord0))) => [[a b] _|t _]; first by [].
  by apply/val_inj; case: t => -[|a [|b [|? ?]]].
by rewrite -(pair_bigA _ (fun a b => F [:: a; b])) /= !big_bool.
Qed.
Lemma xx_norm : 'i * (4%:R / 5%:R) * ('i * (4%:R / 5%:R) : C)^* = (4%:R / 5%:R) * (4%:R / 5%:R).
Proof. by rewrite rmorphM conjCi creal mulrACA mulrN -expr2 sqrCi opprK mul1r. Qed.
Lemma xx_cross : (3%:R / 5%:R) * ('i * (4%:R / 5%:R) : C)^* + 'i * (4%:R / 5%:R) * (3%:R / 5%:R) = 0.
Proof. by rewrite rmorphM conjCi creal !mulNr mulrN mulrC addNr. Qed.
Lemma xxmat_unitary (a c : seq bool) : size a = 2%N -> size c = 2%N ->
  \sum_(b : 2.-tuple bool) xxmat C a b * (xxmat C c b)^* = (a == c)%:R.
Proof.
case: a => [|a [|a' [|? ?]]] // _; case: c => [|c [|c' [|? ?]]] // _.
rewrite (sum2tuple (fun b => xxmat C [:: a; a'] b * (xxmat C [:: c; c'] b)^* )) /xxmat.
have P2 := pyth; have P3 := pyth; rewrite addrC in P3.
have X2 := xx_cross; have X3 := xx_cross; rewrite addrC in X3.
by case: a; case: a'; case: c; case: c';
  rewrite /= ?conjC0 ?mulr0 ?mul0r ?addr0 ?add0r ?xx_norm ?creal ?xx_norm ?P2 ?P3 ?X2 ?X3.
Qed.
Lemma xxgate_unitary t : unitary_gate T3 (xxgate C t).
Proof.
by apply: unitary_matrix_gate; split=> //=; exact: xxmat_unitary.
Qed.
Definition XX t : mat := gmx (xxgate C t) id.
Lemma XX_unitary t : unitary (XX t). Proof. exact: xxgate_unitary. Qed.
Lemma xx_V t V : realises (xx_circuit C t) V -> V = XX t.
Proof.
case=> s [Ho Hu ->]; rewrite /= mul1mx (_ : s = 1%g) ?Pm_1 ?mul1mx //.
have S0 : s None = None by apply: (Ho None None); rewrite inE.
have S1 : s (Some (~~ t)) = Some (~~ t).
  apply: Hu; split=> // i Hi Ei; rewrite /= in Ei; subst i; split=> // o [<-|[]] /=.
  by rewrite !inE; case: (t).
apply/permP => -[q|]; rewrite perm1 //.
case: (eqVneq q (~~ t)) => [->|N] //.
have Eq : q = t by move: N; case: (q); case: (t).
case E : (s (Some q)) => [r|].
- case: (eqVneq r q) => [->|Nr] //.
  have Er : r = ~~ t by move: Nr; rewrite Eq; case: (r); case: (t).
  by move: E; rewrite Er -S1 => /perm_inj; rewrite Eq => -[]; case: (t).
- by move: E; rewrite -S0 => /perm_inj.
Qed.
Lemma xx_wf t : wf_circuit (Lg := T3) (Ph := E3) (xx_circuit C t).
Proof.
split=> //=; first by move=> o q _ _; case: q => [[]|]; rewrite !inE.
by split=> // q; rewrite !inE => /eqP ->.
Qed.
Lemma xx_unitary t : unitary_circuit (Lg := T3) (xx_circuit C t).
Proof. by move=> o [<-|[]]; exact: xxgate_unitary. Qed.
Lemma xx_handle : can_handle (Lg := T3) (xx_circuit C true) (xx_circuit C false) two_anc two_anc.
Proof.
by apply/forallP => q; apply/implyP; rewrite !inE; case: q => [[]|] //=.
Qed.
Lemma xx_handled : ancillaries_handled (Lg := T3) (xx_circuit C true) (xx_circuit C false) two_anc.
Proof.
have H t : leaves_alone (xx_circuit C t) (Some (~~ t) : T3).
  split.
  - by move=> i _ /= -> o [<-|[]] /=; rewrite !inE; case: (t).
  - left; split=> // i _ /= ->; split=> // o [<-|[]] /=; by rewrite !inE; case: (t).
by move=> q; rewrite !inE => /orP[] /eqP ->; [left; exact: (H true)|right; exact: (H false)].
Qed.
Definition flip2 (t : bool) (x : basis) : basis := [ffun q => if (q == None) || (q == Some t) then ~~ x q else x q].
Lemma entry_XX t x y : entry (XX t) x y = 3%:R / 5%:R * (y == x)%:R + 'i * (4%:R / 5%:R) * (y == flip2 t x)%:R.
Proof.
rewrite entry_mx /gker /= /xxmat.
set B := [forall q, _].
have -> : (y == x) = [&& B, x None == y None & x (Some t) == y (Some t)].
  apply/eqP/and3P => [Ey|[/forallP HB /eqP H0 /eqP H1]].
    by rewrite /B Ey; split=> //; apply/forallP => q; rewrite eqxx implybT.
  apply/ffunP => q; case E : (q \notin [:: None; Some t]); first by move: (HB q); rewrite E => /eqP.
  by move/negbFE: E; rewrite !inE => /orP[] /eqP ->.
have -> : (y == flip2 t x) = [&& B, x None == ~~ y None & x (Some t) == ~~ y (Some t)].
  apply/eqP/and3P => [Ey|[/forallP HB /eqP H0 /eqP H1]].
    rewrite /B Ey; split; last 2 first; try by rewrite ffunE /= ?eqxx ?orbT ?negbK ?eqxx.
    by apply/forallP => q; rewrite !inE ffunE; case: ((q == None) || (q == Some t)) => /=.
  apply/ffunP => q; rewrite ffunE; case: ifP => E; last by move: (HB q); rewrite !inE E => /eqP.
  by move/orP: E => [] /eqP ->; rewrite ?H0 ?H1 negbK.
rewrite !eqseq_cons !andbT; case: B => /=; last by rewrite !mulr0 addr0.
by case: (x None); case: (y None); case: (x (Some t)); case: (y (Some t)); rewrite /= ?mulr0 ?mulr1 ?addr0 ?add0r.
Qed.
Lemma amp_XX t (phi : vec C T3) x : amp (XX t *m phi) x = 3%:R / 5%:R * amp phi x + 'i * (4%:R / 5%:R) * amp phi (flip2 t x).
Proof.
have pick (z : basis) : \sum_y (y == z)%:R * amp phi y = amp phi z.
  by rewrite (bigD1 z) //= eqxx mul1r big1 ?addr0 // => y /negbTE ->; rewrite mul0r.
rewrite amp_mul -(pick x) -(pick (flip2 t x)) !mulr_sumr -big_split; apply: eq_bigr => y _ /=.
by rewrite entry_XX mulrDl !mulrA.
Qed.
Let h (x : basis) : basis := along (tperm (Some false : T3) (Some true)) x.
Lemma hK : involutive h.
Proof. by move=> x; rewrite /h along_comp tperm2 along1. Qed.
Lemma hE x : h x = [ffun q => match q with None => x None | Some b => x (Some (~~ b)) end].
Proof. by apply/ffunP => -[[]|]; rewrite !ffunE ?tpermL ?tpermR // tpermD. Qed.
Lemma zeros_two x : zeros two_anc x = ~~ x (Some false) && ~~ x (Some true).
Proof.
apply/forallP/andP => [H|[H0 H1] q]; last by rewrite !inE; apply/implyP => /orP[] /eqP ->.
by split; [have := H (Some false)|have := H (Some true)]; rewrite !inE.
Qed.
Lemma xx_pe : partially_equivalent two_anc two_anc (XX true) (XX false).
Proof.
move=> phi _ Hphi m.
have AP x : amp phi x = (zeros two_anc x)%:R * amp phi x.
  rewrite -{1}Hphi amp_mul (bigD1 x) //= entry_proj0 eqxx /= big1 ?addr0 // => y Ny.
  by rewrite entry_proj0 eq_sym (negbTE Ny) mul0r.
have AH x : amp phi (h x) = amp phi x.
  have EZ : zeros two_anc (h x) = zeros two_anc x by rewrite !zeros_two hE !ffunE /= andbC.
  rewrite AP [RHS]AP EZ; case Zx : (zeros two_anc x); last by rewrite !mul0r.
  congr (_ * amp phi _); move: Zx; rewrite zeros_two => /andP[/negbTE Z0 /negbTE Z1].
  by rewrite hE; apply/ffunP => -[[]|]; rewrite ffunE //= ?Z0 ?Z1.
rewrite /prob [RHS](reindex h) /=; last by exists h => x _; exact: hK.
apply: eq_big => x.
- have S y : same_out two_anc y m = (y None == m None).
    apply/forallP/idP => [/(_ None)|H q]; first by rewrite !inE.
    by case: q => [[]|] //; rewrite !inE.
  by rewrite !S hE ffunE.
- move=> _; congr (`|_| ^+ 2); rewrite !amp_XX AH.
  rewrite (_ : flip2 false (h x) = h (flip2 true x)) ?AH //.
  by apply/ffunP => -[[]|]; rewrite ?hE !ffunE.
Qed.
Lemma xx_not_blocks : ~ blocks two_anc (XX true *m proj0 C two_anc *m adj (XX false)).
Proof.
pose x : basis := [ffun _ => false]; pose y : basis := flip2 false x.
move/(_ x y); rewrite (_ : same_out _ _ _ = false); last first.
  by apply/negP => /forallP /(_ None); rewrite !inE !ffunE.
move/(_ isT); rewrite entry_mul (bigD1 x) //= big1.
- rewrite addr0 entry_projR entry_adj !entry_XX.
  rewrite (_ : [forall _ in _, _] = true); last by apply/forallP => q; rewrite ffunE implybT.
  rewrite eqxx (_ : (x == flip2 true x) = false); last by apply/eqP => /ffunP /(_ None); rewrite !ffunE.
  rewrite (_ : (x == y) = false); last by apply/eqP => /ffunP /(_ None); rewrite !ffunE.
  rewrite (_ : (x == flip2 false y) = true); last by apply/eqP/ffunP => q; rewrite !ffunE; case: ifP => //= ->.
  rewrite !mulr0 !mulr1 addr0 add0r rmorphM conjCi creal mulrA => /eqP.
  by rewrite !mulf_eq0 oppr_eq0 (negbTE (neq0Ci C)) !invr_eq0 !pnatr_eq0.
- move=> z Nz; rewrite entry_projR entry_XX (negbTE Nz) mulr0 add0r.
  case E : (z == flip2 true x); last by rewrite !mulr0 !mul0r.
  rewrite (_ : [forall _ in _, _] = false) ?mulr0 ?mul0r //.
  by apply/negP => /forallP /(_ (Some true)); rewrite !inE (eqP E) !ffunE.
Qed.
Lemma xx_placement geqb : same_placement (Lg := T3) geqb (xx_circuit C true) (xx_circuit C false).
Proof.
by apply: elided_placement => [o [<-|[]]|o [<-|[]]|o q _ _].
Qed.
End XX.
End P.
