From mathcomp Require Import all_ssreflect all_fingroup all_algebra.
From Verif Require Import Criterion Perm PermSpec ZX ZXSpec DDCheck DDSpec Qubits QubitsProofs DDSem ZXSem.
Set Implicit Arguments.
Unset Strict Implicit.
Unset Printing Implicit Defensive.
Import GRing.Theory Num.Theory GroupScope.
Local Open Scope ring_scope.

Section Facts.
Variables (C : numClosedFieldType) (n m : nat) (V : finType).
Local Notation mat := (mat C [finType of 'I_n]).
Local Notation basis := (basis [finType of 'I_n]).
Variable D : diagram C n m V.
Hypothesis W : wf_diagram D.

Definition agrees (x y : basis) (b : {ffun V -> bool}) := [forall i, (b (input D i) == y i) && (b (output D i) == x i)].
Lemma agreesP (x y : basis) (b : {ffun V -> bool}) : reflect (forall i, b (input D i) = y i /\ b (output D i) = x i) (agrees x y b).
Proof.
apply: (iffP forallP) => H i; first by have /andP [/eqP -> /eqP ->] := H i.
by have [-> ->] := H i; rewrite !eqxx.
Qed.
Lemma semE (x y : basis) : entry (zx_sem D) x y = \sum_(b : {ffun V -> bool} | agrees x y b) (\prod_(v : V) amp (kind D v) (b v)) * \prod_(k < m) eweight D k b.
Proof. by rewrite /zx_sem entry_mx. Qed.

Lemma inp_kind i : kind D (input D i) = Boundary. Proof. by case: W => _ _ _ K _; have [-> _] := K i. Qed.
Lemma out_kind i : kind D (output D i) = Boundary. Proof. by case: W => _ _ _ K _; have [_ ->] := K i. Qed.

(** an edge between two inputs is impossible in a unitary diagram *)
Lemma ends k u v : u != v -> touches D k u -> touches D k v ->
  (edge D k).1 = (u, v) \/ (edge D k).1 = (v, u).
Proof.
rewrite /touches; case: (edge D k) => [[a b] h] /= /eqP uv /orP [/eqP e1|/eqP e1] /orP [/eqP e2|/eqP e2].
- by case: uv; rewrite -e1.
- by left; rewrite e1 e2.
- by right; rewrite e1 e2.
- by case: uv; rewrite -e1.
Qed.

Lemma ekernel_sym h a b : ekernel C h a b = ekernel C h b a.
Proof. by case: h; case: a; case: b. Qed.

Lemma unitary_col (U : mat) (x y : basis) : unitary U -> \sum_z (entry U z x)^* * entry U z y = (x == y)%:R.
Proof.
move=> /unitary_left /(congr1 (fun M => entry M x y)); rewrite entry_mul entry_1 => <-.
by apply: eq_bigr => z _; rewrite entry_adj.
Qed.

Definition flip (v : V) (b : {ffun V -> bool}) : {ffun V -> bool} := [ffun u => if u == v then ~~ b u else b u].
Lemma flipK v : involutive (flip v).
Proof. by move=> b; apply/ffunP => u; rewrite !ffunE; case: eqP => //; rewrite negbK. Qed.

Lemma no_cup (U : mat) z i i' k : z != 0 -> unitary U -> zx_sem D = z *: U -> i != i' ->
  touches D k (input D i) -> touches D k (input D i') -> False.
Proof.
move=> z0 UU E ii' T T'; have [II IO IN _ [LL UI UO QI QO]] := W.
have nii : input D i != input D i' by apply/negP => /eqP /II /eqP; rewrite (negbTE ii').
have [k0 [_ Uk]] := UI i.
have colE x y : entry (zx_sem D) x y = z * entry U x y by rewrite E entry_scale.
have col y y' : (forall x, entry (zx_sem D) x y = entry (zx_sem D) x y') -> forall x, entry U x y = entry U x y'.
  by move=> H x; apply: (mulfI z0); rewrite -!colE.
pose y0 : basis := [ffun _ => false]; pose y1 : basis := [ffun j => j == i].
have y01 : y0 != y1 by apply/negP => /eqP /ffunP /(_ i); rewrite !ffunE eqxx.
pose h := (edge D k).2.
have wk b : eweight D k b = ekernel C h (b (input D i)) (b (input D i')).
  rewrite /eweight /h; have [] := ends nii T T'; case: (edge D k) => [[a c] hh] /= [-> ->]; rewrite !inp_kind /= !addbF //.
  exact: ekernel_sym.
have [hT|hF] := boolP h.
- have : forall x, entry U x y0 = entry U x y1.
    apply: col => x; rewrite !semE (reindex_inj (inv_inj (flipK (input D i)))) /=.
    have cond b : agrees x y0 (flip (input D i) b) = agrees x y1 b.
      apply/agreesP/agreesP => H j; have [H1 H2] := H j; move: H1 H2; rewrite !ffunE.
      + rewrite [output D j == _]eq_sym (negbTE (IN i j)) (inj_eq II); case: eqP => [->|_] A B; split=> //.
        by rewrite -[LHS]negbK A.
      + rewrite [output D j == _]eq_sym (negbTE (IN i j)) (inj_eq II); case: eqP => [->|_] -> B; split=> //.
    apply: eq_big => [b|b]; first exact: cond.
    rewrite cond => /agreesP ag; congr (_ * _).
      apply: eq_bigr => v _; rewrite ffunE; case: eqP => [->|//]; by rewrite inp_kind.
    apply: eq_bigr => k' _; case: (k' =P k) => [->|nk].
      have [A _] := ag i'; rewrite !wk !ffunE eqxx eq_sym (negbTE nii) A ffunE eq_sym (negbTE ii') /ekernel hT.
      by rewrite !andbF.
    have nt : ~~ touches D k' (input D i) by apply/negP => t; apply: nk; rewrite (Uk _ t) (Uk _ T).
    move: nt; rewrite /touches /eweight; case: (edge D k') => [[a c] hh] /= /norP [na nc].
    by rewrite !ffunE (negbTE na) (negbTE nc).
  move=> H; have := unitary_col y0 y1 UU; rewrite (negbTE y01) => S0.
  have := unitary_col y0 y0 UU; rewrite eqxx => S1.
  move: S0; under eq_bigr => w _ do rewrite -H; by rewrite S1 => /eqP; rewrite oner_eq0.
- have : forall x, entry U x y1 = 0.
    move=> x; apply: (mulfI z0); rewrite -colE mulr0 semE big1 // => b /agreesP ag.
    have [A _] := ag i; have [B _] := ag i'.
    rewrite (bigD1 k) //= wk A B !ffunE eqxx eq_sym (negbTE ii') /ekernel (negbTE hF) /=.
    by rewrite mul0r mulr0.
  move=> H; have := unitary_col y1 y1 UU; rewrite eqxx big1 ?H.
    by move=> /eqP; rewrite eq_sym oner_eq0.
  by move=> w _; rewrite H mulr0.
Qed.

(** the factor contributed by the spiders does not depend on the boundary values *)
Definition spiders (x y : basis) : C := \sum_(b : {ffun V -> bool} | agrees x y b) \prod_(v : V) amp (kind D v) (b v).
Lemma spiders_const (x y x' y' : basis) : spiders x y = spiders x' y'.
Proof.
have [II IO IN _ _] := W.
pose dl v := [exists i, (input D i == v) && (y i (+) y' i)] || [exists i, (output D i == v) && (x i (+) x' i)].
have dI i : dl (input D i) = y i (+) y' i.
  rewrite /dl; case E : (y i (+) y' i).
    by apply/orP; left; apply/existsP; exists i; rewrite eqxx E.
  apply/negbTE/norP; split; apply/existsP => -[j /andP [/eqP H1 H2]].
    by move: H2; rewrite (II _ _ H1) E.
  by move: (IN i j); rewrite H1 eqxx.
have dO i : dl (output D i) = x i (+) x' i.
  rewrite /dl; case E : (x i (+) x' i).
    by apply/orP; right; apply/existsP; exists i; rewrite eqxx E.
  apply/negbTE/norP; split; apply/existsP => -[j /andP [/eqP H1 H2]].
    by move: (IN j i); rewrite H1 eqxx.
  by move: H2; rewrite (IO _ _ H1) E.
have dB v : dl v -> kind D v = Boundary.
  by case/orP => /existsP [i /andP [/eqP <- _]]; rewrite ?inp_kind ?out_kind.
pose sh (b : {ffun V -> bool}) : {ffun V -> bool} := [ffun v => b v (+) dl v].
have shK : involutive sh by move=> b; apply/ffunP => v; rewrite !ffunE addbK.
rewrite /spiders (reindex_inj (inv_inj shK)) /=; apply: eq_big => [b|b _].
- apply/agreesP/agreesP => H i; have [] := H i; rewrite !ffunE dI dO => A B.
  + split; [rewrite -[LHS](addbK (y i (+) y' i)) A|rewrite -[LHS](addbK (x i (+) x' i)) B]; by rewrite addbA addbb.
  + by rewrite A B [y i (+) _]addbC [x i (+) _]addbC !addbA !addbb.
- apply: eq_bigr => v _; rewrite ffunE; case E: (dl v); last by rewrite addbF.
  by rewrite (dB _ E).
Qed.
End Facts.

Section Wires.
Variables (C : numClosedFieldType) (n : nat) (V : finType).
Local Notation mat := (mat C [finType of 'I_n]).
Local Notation basis := (basis [finType of 'I_n]).
Variable D : diagram C n n V.
Hypothesis W : wf_diagram D.
Variables (U : mat) (z : C).
Hypotheses (z0 : z != 0) (UU : unitary U) (E : zx_sem D = z *: U).

(** n edges: every edge connects an input with an output *)
Lemma matching : exists (f : 'I_n -> 'I_n) (s : {perm 'I_n}), bijective f /\
  forall i, (edge D (f i)).1 = (input D i, output D (s i)) \/ (edge D (f i)).1 = (output D (s i), input D i).
Proof.
have [II IO IN _ [LL UI UO QI QO]] := W.
have [f Hf] := fin_all_exists UI; have [g Hg] := fin_all_exists UO.
have fI : injective f.
  move=> i i' e; apply/eqP/negPn/negP => ne; have [T _] := Hf i; have [T' _] := Hf i'; rewrite -e in T'.
  exact: (no_cup W z0 UU E ne T T').
have [fi fK Kf] := injF_bij fI.
have ht j : (edge D (g j)).1 = (input D (fi (g j)), output D j) \/ (edge D (g j)).1 = (output D j, input D (fi (g j))).
  have [T _] := Hf (fi (g j)); rewrite Kf in T; have [T' _] := Hg j.
  exact: (ends (IN _ _) T T').
have hI : injective (fun j => fi (g j)).
  move=> j j' e; have := congr1 f e; rewrite !Kf => eg; apply: IO.
  have [A|A] := ht j; have [B|B] := ht j'; rewrite -eg A in B; case: B => //.
  - by move=> X; have := IN (fi (g j)) j'; rewrite X eqxx.
  - by move=> X; have := IN (fi (g j)) j; rewrite X eqxx.
exists f, (perm.perm hI)^-1%g; split; first by exists fi.
move=> i; set j := ((perm.perm hI)^-1)%g i; have : perm.perm hI j = i by rewrite /j permKV.
rewrite permE => e; have := ht j; rewrite e; suff -> : g j = f i by []; by rewrite -e Kf.
Qed.

(** which wires carry a Hadamard, and where they lead *)
Lemma wires_sem : exists (s : {perm 'I_n}) (h : 'I_n -> bool),
  (forall i, exists k, (edge D k).2 = h i /\ ((edge D k).1 = (input D i, output D (s i)) \/ (edge D k).1 = (output D (s i), input D i))) /\
  forall x y, entry (zx_sem D) x y = spiders D [ffun _ => false] [ffun _ => false] * \prod_(i < n) ekernel C (h i) (y i) (x (s i)).
Proof.
have [f [s [fB Hf]]] := matching; exists s, (fun i => (edge D (f i)).2); split; first by move=> i; exists (f i).
move=> x y; rewrite semE (spiders_const W [ffun _ => false] [ffun _ => false] x y) /spiders mulr_suml.
apply: eq_bigr => b /agreesP ag.
congr (_ * _); rewrite (reindex f) /=; last by apply: onW_bij.
apply: eq_bigr => i _; rewrite /eweight; have := Hf i; case: (edge D (f i)) => [[u v] h] /= H.
have [A _] := ag i; have [_ B] := ag (s i).
case: H => [[-> ->]|[-> ->]]; rewrite !(inp_kind W) !(out_kind W) /= !addbF A B //.
exact: ekernel_sym.
Qed.
End Wires.

(** what the checker reads of wire [i] *)
Lemma wire_viewE (C : numClosedFieldType) n (V : finType) (D : diagram C n n V) (W : wf_diagram D) i j k :
  (edge D k).1 = (input D i, output D j) \/ (edge D k).1 = (output D j, input D i) ->
  wire_view D i = (if (edge D k).2 then EHadamard else ESimple, Some (nat_of_ord i), Some (nat_of_ord j)).
Proof.
move=> H; have [II IO IN _ [LL UI UO QI QO]] := W.
have T : touches D k (input D i) by rewrite /touches; case: H => ->; rewrite eqxx ?orbT.
rewrite /wire_view; case: pickP => [k' T'|/(_ k)]; last by rewrite T.
have [k0 [_ U0]] := UI i; have {T'} -> : k' = k by rewrite (U0 _ T) (U0 _ T').
case: (edge D k) H => [[u v] h] /= [[-> ->]|[-> ->]]; first by rewrite eqxx QI QO.
by rewrite [_ == _]eq_sym (negbTE (IN i j)) QI QO.
Qed.

Section Verdict.
Variables (C : numClosedFieldType) (n : nat) (V : finType).
Local Notation Lg := [finType of 'I_n].
Local Notation mat := (mat C Lg).
Local Notation basis := (basis Lg).
Variable D : diagram C n n V.
Hypothesis W : wf_diagram D.

Lemma as_perm_maps r (s : {perm 'I_n}) (i : 'I_n) l : as_perm r s -> maps r i l -> l = s i.
Proof. by move=> H; have := H i; rewrite /maps => -> [->]. Qed.

(** all wires that are looked at are plain: the two circuits differ at most on the outputs of the others *)
Lemma plain_core (g1 g2 : nat -> bool) (s1 s2 : {perm 'I_n}) (U1 U2 : mat) (z : C) :
  z != 0 -> unitary U1 -> unitary U2 -> zx_sem D = z *: (U2 *m adj U1) ->
  (forall (i j : 'I_n) k, (edge D k).1 = (input D i, output D j) \/ (edge D k).1 = (output D j, input D i) -> ~~ (g1 i && g2 i) ->
     (edge D k).2 = false /\ s2 j = s1 i) ->
  exists K : mat, [/\ unitary K, acts_only_on [set s1 i | i : 'I_n & g1 i && g2 i] K,
    Pm C s2 *m U2 = K *m (Pm C s1 *m U1) &
    (forall i : 'I_n, ~~ (g1 i && g2 i)) -> K = (z^-1 * spiders D [ffun _ => false] [ffun _ => false]) *: 1%:M].
Proof.
move=> z0 UU1 UU2 E P.
have UU : unitary (U2 *m adj U1) by apply: unitary_mul => //; apply: unitary_adj.
have [s [h [Hw Hs]]] := wires_sem W z0 UU E.
have pl (i : 'I_n) : ~~ (g1 i && g2 i) -> h i = false /\ s2 (s i) = s1 i.
  by move=> ng; have [k [Hh Hk]] := Hw i; have [e1 e2] := P i (s i) k Hk ng; rewrite -Hh.
pose c := z^-1 * spiders D [ffun _ => false] [ffun _ => false].
have EU x y : entry (U2 *m adj U1) x y = c * \prod_(i < n) ekernel C (h i) (y i) (x (s i)).
  have -> : U2 *m adj U1 = z^-1 *: zx_sem D by rewrite E scalerA mulVf // scale1r.
  by rewrite entry_scale Hs mulrA.
pose K : mat := Pm C s2 *m (U2 *m adj U1) *m adj (Pm C s1).
have EK x y : entry K x y = c * \prod_(i < n) ekernel C (h i) (y (s1 i)) (x (s2 (s i))).
  rewrite /K adj_Pm entry_PmR entry_PmL EU invgK; congr (_ * _); apply: eq_bigr => i _; by rewrite !ffunE.
pose T := [set s1 i | i : 'I_n & g1 i && g2 i].
have inT (i : 'I_n) : (s1 i \in T) = g1 i && g2 i by rewrite mem_imset ?inE //; exact: perm_inj.
have s2T (i : 'I_n) : g1 i && g2 i -> s2 (s i) \in T.
  move=> gi; apply/negPn/negP => nT; move: (nT); have [j Ej] : exists j, s2 (s i) = s1 j by exists ((s1^-1)%g (s2 (s i))); rewrite permKV.
  rewrite Ej inT => ng; have [_ e] := pl j ng; move: Ej; rewrite -e => /perm_inj /perm_inj ij; by rewrite ij (negbTE ng) in gi.
exists K; split.
- by apply: unitary_mul; [apply: unitary_mul => //; apply: unitary_Pm|apply: unitary_adj; apply: unitary_Pm].
- split=> [x y q qT ne|x y x' y' Ex Ey Ox Oy].
    have [j Ej] : exists j, q = s1 j by exists ((s1^-1)%g q); rewrite permKV.
    subst q; rewrite inT in qT; have [hj sj] := pl j qT.
    by rewrite EK (bigD1 j) //= hj sj /ekernel eq_sym (negbTE ne) mul0r mulr0.
  rewrite !EK; congr (_ * _); apply: eq_bigr => i _; case: (boolP (g1 i && g2 i)) => gi.
    by rewrite (Ex _ (s2T i gi)) (Ey (s1 i)) // inT.
  have [-> ->] := pl i gi; rewrite /ekernel Ox ?Oy ?inT //; by rewrite !eqxx.
- rewrite /K -!mulmxA (mulmxA (adj (Pm C s1))) (unitary_left (unitary_Pm C s1)) mul1mx (unitary_left UU1) mulmx1 //.
- move=> ng; apply: mxP => x y; rewrite EK entry_scale entry_1 -/c; congr (_ * _).
  case: eqP => [->|ne].
    by rewrite big1 // => i _; have [-> ->] := pl i (ng i); rewrite /ekernel eqxx.
  case: (boolP [exists i, y (s1 i) != x (s1 i)]) => [/existsP [i ni]|/existsPn H]; last first.
    case: ne; apply/ffunP => q; have := H ((s1^-1)%g q); by rewrite negbK permKV => /eqP ->.
  by rewrite (bigD1 i) //=; have [-> ->] := pl i (ng i); rewrite /ekernel (negbTE ni) mul0r.
Qed.

(** positive verdict *)
Lemma plain_acts (g1 g2 : nat -> bool) ph p1 p2 (s1 s2 : {perm 'I_n}) (U1 U2 : mat) (z : C) :
  z != 0 -> unitary U1 -> unitary U2 -> zx_sem D = z *: (U2 *m adj U1) ->
  as_perm p1 s1 -> as_perm p2 s2 -> all_plain g1 g2 p1 p2 (view ph D) ->
  exists K : mat, [/\ unitary K, acts_only_on [set s1 i | i : 'I_n & g1 i && g2 i] K,
    Pm C s2 *m U2 = K *m (Pm C s1 *m U1) &
    (forall i : 'I_n, ~~ (g1 i && g2 i)) -> K = (z^-1 * spiders D [ffun _ => false] [ffun _ => false]) *: 1%:M].
Proof.
move=> z0 UU1 UU2 E A1 A2 [_ P]; apply: plain_core => // i j k Hk ng.
have [|[G1 G2]|[q1 [q2 [l [Ev [M1 M2]]]]]] := P i; [exact/ltP/ltn_ord| |].
  by rewrite G1 G2 in ng.
move: Ev; rewrite /view /= insubT ?ltn_ord // => lt; rewrite (_ : Sub _ _ = i); last by apply: val_inj.
rewrite (wire_viewE W Hk); case: (edge D k).2 => // -[e1 e2]; split=> //.
move: M1 M2; rewrite -e1 -e2 => /(as_perm_maps A1) -> /(as_perm_maps A2) e.
by apply: val_inj.
Qed.
End Verdict.
