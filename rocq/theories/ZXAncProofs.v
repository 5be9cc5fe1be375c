From mathcomp Require Import all_ssreflect all_fingroup all_algebra.
From Verif Require Import Criterion Perm PermSpec PermProofs ZX ZXSpec ZXProofs DDCheck DDSpec Qubits QubitsProofs QubitsProofs2 DDSem DDSemProofs2 ZXSem ZXSemProofs ZXSemProofs2 ZXAnc.
Set Implicit Arguments.
Unset Strict Implicit.
Unset Printing Implicit Defensive.
Import GRing.Theory Num.Theory GroupScope.
Local Open Scope ring_scope.

Section P.
Variables (C : numClosedFieldType) (w a : nat).
Local Notation Lg := [finType of 'I_(w + a)].
Local Notation Dt := [finType of 'I_w].
Local Notation gate := (gate C nat_eqType).
Local Notation circuit := (circuit nat_eqType Lg gate).
Local Notation mat := (mat C Lg).
Local Notation dmat := (Qubits.mat C Dt).
Local Notation pad := (with_zeros (@lshift w a)).
Local Notation anc := (ancillaries w a).
Local Notation zeros x := [forall q in anc, ~~ x q].

Lemma pad_data (x : basis Dt) i : pad x (lshift a i) = x i.
Proof.
rewrite ffunE; case E: (x i); first by apply/existsP; exists i; rewrite eqxx.
by apply/existsP => -[j /andP [/eqP /lshift_inj ->]]; rewrite E.
Qed.
Lemma pad_zeros (x : basis Dt) : zeros (pad x).
Proof.
apply/forallP => q; apply/implyP; rewrite inE => lq; rewrite ffunE; apply/existsP => -[i /andP [/eqP e _]].
by move: lq; rewrite -e /= leqNgt ltn_ord.
Qed.
Lemma data_cases (q : 'I_(w + a)) : (exists i, q = lshift a i) \/ q \in anc.
Proof. rewrite inE; case: (splitP q) => [j e|k e]; [left; exists j; exact: val_inj|right; by rewrite e leq_addr]. Qed.
Lemma zeros_pad (y : basis Lg) : zeros y -> pad [ffun i => y (lshift a i)] = y.
Proof.
move=> /forallP Z; apply/ffunP => q; have [[i ->]|A] := data_cases q; first by rewrite pad_data ffunE.
have := Z q; rewrite A /= => /negbTE ->.
by have /forallP /(_ q) := pad_zeros [ffun i => y (lshift a i)]; rewrite A /= => /negbTE.
Qed.
Lemma pad_inj (x y : basis Dt) : (pad x == pad y) = (x == y).
Proof. apply/eqP/eqP => [E|-> //]; apply/ffunP => i; by rewrite -pad_data E pad_data. Qed.

Lemma clean_entry (V : mat) (x y : basis Lg) : returns_ancillaries V -> zeros y -> ~~ zeros x -> entry V x y = 0.
Proof.
move=> /(congr1 (fun M => entry M x y)) E Zy /negbTE Zx; move: E; rewrite !entry_projR entry_projL Zx Zy mul0r !mulr1.
by move=> <-.
Qed.
Lemma on_data_unitary (V : mat) : unitary V -> returns_ancillaries V -> unitary (on_data V).
Proof.
move=> UV RV; apply: mulmx1C; apply: mxP => x y; rewrite entry_mul entry_1.
have := congr1 (fun M => entry M (pad x) (pad y)) (unitary_left UV); rewrite entry_mul entry_1 pad_inj => <-.
rewrite (bigID (fun z : basis Lg => zeros z)) /= [X in _ = _ + X]big1 ?addr0; last first.
  by move=> z nz; rewrite entry_adj (clean_entry RV (pad_zeros x) nz) conjC0 mul0r.
rewrite (reindex_onto (fun z => pad z) (fun z : basis Lg => [ffun i => z (lshift a i)] : basis Dt)) /=; last by move=> z; exact: zeros_pad.
apply: eq_big => [z|z _]; last by rewrite !entry_adj !entry_mx.
by rewrite pad_zeros /=; symmetry; apply/eqP/ffunP => i; rewrite ffunE pad_data.
Qed.

(** where the remaining wires lead *)
Lemma data_perm (c : circuit) (l : 'I_w -> 'I_(w + a)) (s : {perm 'I_(w + a)}) : data_wires c l ->
  (forall i v, (i, v) \in c_output _ _ _ c -> s (c_layout _ _ _ c i) = v) ->
  exists t : {perm 'I_w}, forall i, s (l i) = lshift a (t i).
Proof.
move=> [Il Hl] S.
have ex i : exists q : 'I_w, s (l i) = lshift a q.
  by have [k [q [E I]]] := Hl i; exists q; rewrite -(S _ _ I) E.
have [t Ht] := fin_all_exists ex.
have It : injective t by move=> i j e; apply: Il; apply: (@perm_inj _ s); rewrite !Ht e.
by exists (perm.perm It) => i; rewrite permE.
Qed.
Lemma on_data_remaining (c : circuit) (l : 'I_w -> 'I_(w + a)) (s : {perm 'I_(w + a)}) (t : {perm 'I_w}) : (forall i, s (l i) = lshift a (t i)) ->
  on_data (Pm C s *m wire_op c) = Pm C t *m remaining l c.
Proof.
move=> St; apply: mxP => x y; rewrite entry_PmL !entry_mx entry_PmL; congr (entry _ _ _).
apply/ffunP => q; rewrite /along !ffunE; apply/existsP/existsP => -[i /andP [/eqP e xi]].
- exists ((t^-1)%g i); rewrite ffunE permKV xi andbT; apply/eqP; apply: (@perm_inj _ s); by rewrite St permKV.
- exists (t i); rewrite ffunE in xi; by rewrite xi andbT -e St.
Qed.
Lemma unitary_remaining (c : circuit) (l : 'I_w -> 'I_(w + a)) (s : {perm 'I_(w + a)}) (t : {perm 'I_w}) : (forall i, s (l i) = lshift a (t i)) ->
  unitary (wire_op c) -> returns_ancillaries (Pm C s *m wire_op c) -> unitary (remaining l c).
Proof.
move=> St Uc Rc; have -> : remaining l c = adj (Pm C t) *m on_data (Pm C s *m wire_op c).
  by rewrite (on_data_remaining c St) mulmxA (unitary_left (unitary_Pm C t)) mul1mx.
apply: unitary_mul; first by apply: unitary_adj; apply: unitary_Pm.
by apply: on_data_unitary => //; apply: unitary_mul => //; apply: unitary_Pm.
Qed.
(** equal on the data qubits: equal if the ancillaries start in 0 *)
Lemma agree_on_data (V1 V2 : mat) z : returns_ancillaries V1 -> returns_ancillaries V2 -> on_data V1 = z *: on_data V2 -> agree_up_to anc z V1 V2.
Proof.
move=> R1 R2 E; rewrite /agree_up_to; apply: mxP => x y; rewrite entry_scale !entry_projR.
have [Zy|_] := boolP (zeros y); last by rewrite !mulr0.
have [Zx|Zx] := boolP (zeros x); last by rewrite !(clean_entry _ Zy Zx) // !mul0r mulr0.
rewrite !mulr1 -(zeros_pad Zx) -(zeros_pad Zy).
by have := congr1 (fun M => entry M [ffun i => x (lshift a i)] [ffun i => y (lshift a i)]) E; rewrite entry_scale !entry_mx.
Qed.

Lemma unit_scalar n (z : C) : unitary (z *: 1%:M : Qubits.mat C [finType of 'I_n]) -> `|z| = 1.
Proof.
rewrite /unitary adj_scale adj_1 -scalemxAl mul1mx scalerA => /(congr1 (fun M => entry M [ffun _ => false] [ffun _ => false])).
by rewrite entry_scale !entry_1 eqxx mulr1 -normCK => /eqP; rewrite pexpr_eq1 ?normr_ge0 // => /eqP.
Qed.

Lemma wire_view_labelled (V : finType) (D : diagram C w w V) (q : V -> option nat) (W : wf_diagram (with_labels D q)) i j k :
  (edge D k).1 = (input D i, output D j) \/ (edge D k).1 = (output D j, input D i) ->
  wire_view D i = (if (edge D k).2 then EHadamard else ESimple, qdata D (input D i), qdata D (output D j)).
Proof.
move=> H; have [II IO IN _ [LL UI UO QI QO]] := W.
have T : touches D k (input D i) by rewrite /touches; case: H => ->; rewrite eqxx ?orbT.
rewrite /wire_view; case: pickP => [k' T'|/(_ k)]; last by rewrite T.
have [k0 [_ U0]] := UI i; have {T'} -> : k' = k by rewrite (U0 _ T) (U0 _ T').
case: (edge D k) H => [[u v] h] /= [[-> ->]|[-> ->]]; first by rewrite eqxx.
by rewrite [_ == _]eq_sym (negbTE (IN i j)).
Qed.

Lemma zx_anc_true m (V : finType) (D : diagram C w m V) (ph : C) nd an done g1 g2 (c1 c2 : circuit) (l1 l2 : 'I_w -> 'I_(w + a)) (V1 V2 : mat) v :
  wf_circuit c1 -> wf_circuit c2 -> unitary_circuit c1 -> unitary_circuit c2 -> full_maps c1 -> full_maps c2 ->
  data_wires c1 l1 -> data_wires c2 l2 -> wf_labelled l1 l2 D -> denotes D ph (remaining l2 c2 *m adj (remaining l1 c1)) ->
  realises c1 V1 -> realises c2 V2 -> returns_ancillaries V1 -> returns_ancillaries V2 ->
  zx_answer_anc nd an done g1 g2 c1 c2 D ph = ZVerdict v -> v = Equivalent \/ v = EquivalentUpToGlobalPhase ->
  exists K : dmat, [/\ unitary K, acts_only_on (skipped_data g1 g2 l1 c1) K, on_data V2 = K *m on_data V1 &
    (forall i : 'I_w, ~~ (g1 i && g2 i)) -> (exists2 z : C, `|z| = 1 & K = z *: 1%:M) /\
      (v = Equivalent -> no_isolated D -> K = 1%:M)].
Proof.
move=> W1 W2 U1 U2 F1 F2 L1 L2 [[lb WD] QD] [P1 [r r0 Dn]] R1 R2 C1 C2 Rn Pos.
have [q1 [s1 [E1 A1 S1 SS1 EV1]]] := combined_circuit W1 F1 R1.
have [q2 [s2 [E2 A2 S2 _ EV2]]] := combined_circuit W2 F2 R2.
have [t1 T1] := data_perm L1 S1; have [t2 T2] := data_perm L2 S2.
move: Rn; rewrite /zx_answer_anc => /(proj1 (run_positive _ _ _ _ _ _ _ _ _ _ _ _ _ _ _ E1 E2 Pos)) [_ [AP Ev]].
have em : m = w by case: AP.
subst m.
have ph0 : ph != 0 by rewrite -normr_gt0 P1 ltr01.
have Ez : zx_sem (with_labels D lb) = (ph^-1 * r) *: (remaining l2 c2 *m adj (remaining l1 c1)).
  by rewrite -scalerA -Dn scalerA mulVf // scale1r.
have z0 : ph^-1 * r != 0 by rewrite mulf_neq0 ?invr_eq0 // lt0r_neq0.
have [UU1 UU2] : unitary (remaining l1 c1) /\ unitary (remaining l2 c2).
  by rewrite EV1 in C1; rewrite EV2 in C2; split; [apply: (unitary_remaining T1)|apply: (unitary_remaining T2)] => //; exact: unitary_wire_op.
have PL (i j : 'I_w) k : (edge D k).1 = (input D i, output D j) \/ (edge D k).1 = (output D j, input D i) -> ~~ (g1 i && g2 i) ->
     (edge D k).2 = false /\ t2 j = t1 i.
  move=> Hk ng; case: AP => _ P.
  have [|[G1 G2]|[o1 [o2 [l [Evw [M1 M2]]]]]] := P i; [exact/ltP/ltn_ord| |].
    by rewrite G1 G2 in ng.
  move: Evw; rewrite /view /= insubT ?ltn_ord // => lt; rewrite (_ : Sub _ _ = i); last by apply: val_inj.
  rewrite (wire_view_labelled WD Hk); have [Qi _] := QD i; have [_ Qj] := QD j; rewrite Qi Qj.
  case: (edge D k).2 => // -[e1 e2]; split=> //.
  move: M1 M2; rewrite -e1 -e2 => /(as_perm_maps A1) -> /(as_perm_maps A2) e.
  by apply: (@lshift_inj w a); rewrite -T1 -T2; apply: val_inj.
have [K [UK AK EK NK]] := plain_core WD z0 UU1 UU2 Ez PL.
exists K; split=> //.
- suff -> : skipped_data g1 g2 l1 c1 = [set t1 i | i : 'I_w & g1 i && g2 i] by [].
  apply/setP => q; rewrite !inE; apply/existsP/imsetP => [[i /and3P [G1 G2 /hasP [[k v'] I /= /andP [/eqP e1 /eqP e2]]]]|[i]].
    exists i; rewrite ?inE ?G1 ?G2 //; apply: (@lshift_inj w a); by rewrite -T1 -e1 -(S1 _ _ I) e2.
  rewrite inE => /andP [G1 G2] ->; exists i; rewrite G1 G2 /=; apply/hasP; have [k Ek Io] := SS1 (l1 i).
  by exists (k, s1 (l1 i)) => //=; rewrite T1 Ek !eqxx.
- by rewrite EV1 EV2 (on_data_remaining c1 T1) (on_data_remaining c2 T2).
- move=> ng; have {}NK := NK ng; have ZK := UK; rewrite NK in ZK; have zK := unit_scalar ZK; split; first by eexists; [exact: zK|].
  move=> ve NI; have sp : spiders (with_labels D lb) [ffun _ => false] [ffun _ => false] = 1 by apply: spiders_bare.
  have ph1 : ph = 1 by move: Ev; rewrite ve /=; case: eqP.
  rewrite NK sp mulr1 ph1 invr1 mul1r; move: zK; rewrite sp mulr1 ph1 invr1 mul1r normfV gtr0_norm // => /eqP.
  by rewrite invr_eq1 => /eqP ->; rewrite invr1 scale1r.
Qed.
End P.
