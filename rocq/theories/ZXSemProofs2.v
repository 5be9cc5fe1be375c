From mathcomp Require Import all_ssreflect all_fingroup all_algebra.
From Verif Require Import Criterion Perm PermSpec PermProofs ZX ZXSpec ZXProofs DDCheck DDSpec Qubits QubitsProofs QubitsProofs2 DDSem DDSemProofs2 ZXSem ZXSemProofs.
Set Implicit Arguments.
Unset Strict Implicit.
Unset Printing Implicit Defensive.
Import GRing.Theory Num.Theory GroupScope.
Local Open Scope ring_scope.

Section End.
Variables (C : numClosedFieldType) (n : nat).
Local Notation Lg := [finType of 'I_n].
Local Notation gate := (gate C nat_eqType).
Local Notation circuit := (circuit nat_eqType Lg gate).
Local Notation mat := (mat C Lg).

Lemma InP (T : eqType) (x : T) (l : seq T) : reflect (List.In x l) (x \in l).
Proof.
elim: l => [|y l IH] /=; first by apply: (iffP idP).
rewrite in_cons; apply: (iffP orP) => [[/eqP ->|/IH]|[->|/IH]]; auto.
Qed.

Lemma layout_maps (c : circuit) i w : is_map (layout_map c) -> maps (layout_map c) i w <-> i \in c_keys _ _ _ c /\ w = c_layout _ _ _ c i.
Proof.
move=> M; rewrite maps_in //; split=> [/InP /mapP [j J [-> ->]] //|[I ->]].
by apply/InP/mapP; exists i.
Qed.
Lemma output_maps (c : circuit) i w : is_map (output_map c) -> maps (output_map c) i w <-> exists2 q : 'I_n, (i, q) \in c_output _ _ _ c & w = q.
Proof.
move=> M; rewrite maps_in //; split=> [/InP /mapP [[j q] J [-> ->]]|[q I ->]]; first by exists q.
by apply/InP/mapP; exists (i, q).
Qed.

(** with full maps, what invertPermutations computes is the permutation that [realises] uses *)
Lemma combined_circuit (c : circuit) V : wf_circuit c -> full_maps c -> realises c V ->
  exists r (s : {perm 'I_n}), [/\ invertPermutations (output_map c) (layout_map c) n = Some r, as_perm (invert r) s,
    forall i v, (i, v) \in c_output _ _ _ c -> s (c_layout _ _ _ c i) = v,
    forall w, exists2 i, c_layout _ _ _ c i = w & (i, s w) \in c_output _ _ _ c & V = Pm C s *m wire_op c].
Proof.
move=> [UK LI _ [UO1 UO2 SK SV]] [ML MO SL SO] [s [Ho _ ->]].
have lst : size [seq e.1 | e <- c_output _ _ _ c] = size (c_keys _ _ _ c) by rewrite size_map SO SL.
have sur w : exists i, [/\ i \in c_keys _ _ _ c, c_layout _ _ _ c i = w & (i, s w) \in c_output _ _ _ c].
  have U : uniq [seq c_layout _ _ _ c i | i <- c_keys _ _ _ c] by rewrite map_inj_in_uniq.
  have sub : {subset [seq c_layout _ _ _ c i | i <- c_keys _ _ _ c] <= enum 'I_n} by move=> x _; rewrite mem_enum.
  have le : (size (enum 'I_n) <= size [seq c_layout _ _ _ c i | i <- c_keys _ _ _ c])%N by rewrite size_map SL size_enum_ord.
  have [_ e] := uniq_min_size U sub le.
  have : w \in [seq c_layout _ _ _ c i | i <- c_keys _ _ _ c] by rewrite e mem_enum.
  case/mapP => i Ik Ei; exists i; split=> //.
  have le' : (size (c_keys _ _ _ c) <= size [seq e.1 | e <- c_output _ _ _ c])%N by rewrite lst.
  have [_ e'] := uniq_min_size UO1 SK le'; have : i \in [seq e.1 | e <- c_output _ _ _ c] by rewrite e'.
  case/mapP => -[i' v] J /= ei; subst i'; suff -> : s w = v by []; by rewrite -(Ho _ _ J) Ei.
have SLn : length (layout_map c) = n by rewrite -[RHS]SL; exact: size_map.
have SOn : length (output_map c) = n by rewrite -[RHS]SO; exact: size_map.
exists (concat (invert (output_map c)) (layout_map c)), s; split=> //; last by move=> w; have [i [_ ? ?]] := sur w; exists i.
  by rewrite /invertPermutations /complete SOn SLn PeanoNat.Nat.eqb_refl.
have IO : injective_map (output_map c).
  move=> k k' v /(output_maps _ _ MO) [q I1 E1] /(output_maps _ _ MO) [q' I2 E2].
  have {E1 E2} eq : q = q' by apply: val_inj; rewrite /= -E1 -E2.
  subst q'; have := (Ho _ _ I1); rewrite -(Ho _ _ I2) => /perm_inj; apply: LI; apply: SK; exact: map_f I1 || exact: map_f I2.
have IL : injective_map (layout_map c).
  by move=> k k' v /(layout_maps _ _ ML) [I1 E1] /(layout_maps _ _ ML) [I2 E2]; apply: LI => //; apply: val_inj; rewrite /= -E1 -E2.
have FI q i : maps (invert (output_map c)) q i <-> maps (output_map c) i q by apply: invert_maps.
pose r := concat (invert (output_map c)) (layout_map c).
have Rr q w : maps r q w <-> exists i, maps (output_map c) i q /\ maps (layout_map c) i w.
  rewrite /maps /r concat_find; last exact: invert_is_map.
  split.
    case E: (qfind q (invert (output_map c))) => [i|] // H; exists i; split=> //; exact/FI.
  by move=> [i [/FI H1 H2]]; rewrite /maps in H1; rewrite H1.
have Ir : injective_map r.
  move=> k k' v /Rr [i [A1 A2]] /Rr [j [B1 B2]]; have e := IL _ _ _ A2 B2; subst j; by move: A1; rewrite /maps B1 => -[].
move=> w; apply/invert_maps => //; first exact: concat_is_map.
apply/Rr; have [i [Ik Ei Io]] := sur w.
exists i; split; last by apply/layout_maps => //; split=> //; rewrite Ei.
by apply/output_maps => //; exists (s w).
Qed.

Lemma unitary_wire_op (c : circuit) : wf_circuit c -> unitary_circuit c -> unitary (wire_op c).
Proof.
case=> Uk injL Hq _ HU; apply: unitary_sem_ops => o Ho; apply: unitary_sem; first exact: HU.
by move=> a b Ha Hb; apply: injL; apply: Hq Ho _.
Qed.

Lemma spiders_bare m (V : finType) (D : diagram C n m V) : wf_diagram D -> no_isolated D ->
  spiders D [ffun _ => false] [ffun _ => false] = 1.
Proof.
move=> W NI; rewrite /spiders; have [II IO IN KK _] := W.
have amp1 (b : {ffun V -> bool}) : \prod_(v : V) amp (kind D v) (b v) = 1.
  rewrite big1 // => v _; have [[i ->]|[i ->]] := NI v; have [a b'] := KK i; by rewrite ?a ?b'.
have E0 b : agrees D [ffun _ => false] [ffun _ => false] b = (b == [ffun _ => false]).
  apply/agreesP/eqP => [H|-> i]; last by rewrite !ffunE.
  by apply/ffunP => v; rewrite ffunE; have [[i ->]|[i ->]] := NI v; have [] := H i; rewrite !ffunE.
by rewrite (big_pred1 [ffun _ => false]) ?amp1.
Qed.

Lemma zx_true m (V : finType) (D : diagram C n m V) (ph : C) nd anc done g1 g2 (c1 c2 : circuit) (V1 V2 : mat) v :
  wf_circuit c1 -> wf_circuit c2 -> unitary_circuit c1 -> unitary_circuit c2 -> full_maps c1 -> full_maps c2 ->
  wf_diagram D -> denotes D ph (wire_op c2 *m adj (wire_op c1)) ->
  realises c1 V1 -> realises c2 V2 ->
  zx_answer nd anc done g1 g2 c1 c2 D ph = ZVerdict v -> v = Equivalent \/ v = EquivalentUpToGlobalPhase ->
  exists K : mat, [/\ unitary K, acts_only_on (skipped_outputs g1 g2 c1) K, V2 = K *m V1 &
    (forall i : 'I_n, ~~ (g1 i && g2 i)) -> (exists2 w : C, `|w| = 1 & K = w *: 1%:M) /\
      (v = Equivalent -> no_isolated D -> K = 1%:M)].
Proof.
move=> W1 W2 U1 U2 F1 F2 WD [P1 [r r0 Dn]] R1 R2 Rn Pos.
have [q1 [s1 [E1 A1 S1 SS1 ->]]] := combined_circuit W1 F1 R1.
have [q2 [s2 [E2 A2 S2 _ ->]]] := combined_circuit W2 F2 R2.
move: Rn; rewrite /zx_answer => /(proj1 (run_positive _ _ _ _ _ _ _ _ _ _ _ _ _ _ _ E1 E2 Pos)) [_ [AP Ev]].
have em : m = n by case: AP.
subst m.
have ph0 : ph != 0 by rewrite -normr_gt0 P1 ltr01.
have Ez : zx_sem D = (ph^-1 * r) *: (wire_op c2 *m adj (wire_op c1)).
  by rewrite -scalerA -Dn scalerA mulVf // scale1r.
have z0 : ph^-1 * r != 0 by rewrite mulf_neq0 ?invr_eq0 // lt0r_neq0.
have [UU1 UU2] : unitary (wire_op c1) /\ unitary (wire_op c2) by split; exact: unitary_wire_op.
have [K [UK AK EK NK]] := plain_acts WD z0 UU1 UU2 Ez A1 A2 AP.
exists K; split=> //.
- suff -> : skipped_outputs g1 g2 c1 = [set s1 i | i : 'I_n & g1 i && g2 i] by [].
  have [ML MO SL SO] := F1; have [UK1 LI _ [UO1 _ SK _]] := W1.
  apply/setP => q; rewrite !inE; apply/hasP/imsetP => [[[i q'] I /= /and3P [/eqP <- G1 G2]]|[w]].
    by exists (c_layout _ _ _ c1 i); rewrite ?inE ?G1 ?G2 // (S1 _ _ I).
  rewrite inE => Gw ->; have [i Ei Io] := SS1 w; exists (i, s1 w) => //=; by rewrite eqxx Ei.
- move=> ng; have {}NK := NK ng; split.
    set w := _ * _ in NK; exists w => //; move: UK; rewrite NK /unitary adj_scale adj_1 -scalemxAl mul1mx scalerA => /(congr1 (fun M => entry M [ffun _ => false] [ffun _ => false])).
    rewrite entry_scale !entry_1 eqxx mulr1 -normCK => /eqP; by rewrite pexpr_eq1 ?normr_ge0 // => /eqP.
  move=> ve NI; rewrite NK (spiders_bare WD NI) mulr1.
  have ph1 : ph = 1 by move: Ev; rewrite ve /=; case: eqP.
  move: UK; rewrite NK (spiders_bare WD NI) mulr1 ph1 invr1 mul1r => UK.
  suff -> : r = 1 by rewrite invr1 scale1r.
  move: UK; rewrite /unitary adj_scale adj_1 -scalemxAl mul1mx scalerA => /(congr1 (fun M => entry M [ffun _ => false] [ffun _ => false])).
  rewrite entry_scale !entry_1 eqxx mulr1 -normCK => /eqP; rewrite pexpr_eq1 ?normr_ge0 // normfV gtr0_norm //.
  by rewrite invr_eq1 => /eqP.
Qed.
End End.
