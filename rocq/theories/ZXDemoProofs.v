From mathcomp Require Import all_ssreflect all_fingroup all_algebra.
From Verif Require Import Criterion Perm PermSpec PermProofs ZX ZXSpec ZXProofs DDCheck DDSpec Qubits QubitsProofs QubitsProofs2 GateProofs DDSem DDSemProofs DDSemProofs2 ZXSem ZXSemProofs ZXSemProofs2 ZXDemo.
Set Implicit Arguments.
Unset Strict Implicit.
Unset Printing Implicit Defensive.
Import GRing.Theory Num.Theory GroupScope.
Local Open Scope ring_scope.

Section Wires.
Variables (C : numClosedFieldType) (n : nat) (t : {perm 'I_n}) (h : 'I_n -> bool).
Let D := wires_diagram C t h.
Lemma wires_wf : wf_diagram D.
Proof.
split=> //; [by move=> i j [->]|by move=> i j [->]|].
split=> // i.
- exists i; split=> [|k']; first by rewrite /touches /= eqxx.
  by rewrite /touches /= orbF => /eqP [->].
- exists ((t^-1)%g i); split=> [|k']; first by rewrite /touches /= permKV eqxx.
  by rewrite /touches /= => /eqP [<-]; rewrite permK.
Qed.
Lemma wires_bare : no_isolated D.
Proof. by move=> [[] i]; [right|left]; exists i. Qed.
Lemma wires_entry x y : entry (zx_sem D) x y = \prod_(i < n) ekernel C (h i) (y i) (x (t i)).
Proof.
rewrite semE (big_pred1 [ffun v : [finType of bool * 'I_n] => if v.1 then x v.2 else y v.2]).
  rewrite big1; last by [].
  rewrite mul1r; apply: eq_bigr => i _; by rewrite /eweight /= !ffunE /= addbF addbF.
move=> b; apply/agreesP/eqP => [H|-> i]; last by rewrite !ffunE.
by apply/ffunP => -[[] i]; rewrite ffunE /=; have [] := H i.
Qed.
Lemma wires_plain : (forall i, h i = false) -> zx_sem D = Pm C t.
Proof.
move=> H; apply: mxP => x y; rewrite wires_entry entry_Pm.
case: eqP => [->|ne]; first by rewrite big1 // => i _; rewrite H /ekernel ffunE eqxx.
case: (boolP [exists i, y i != x (t i)]) => [/existsP [i ni]|/existsPn X]; last first.
  by case: ne; apply/ffunP => i; rewrite ffunE; apply/eqP; move: (X i); rewrite negbK.
by rewrite (bigD1 i) //= H /ekernel (negbTE ni) mul0r.
Qed.
Lemma wires_view ph (i : 'I_n) : z_wire (view ph D) i = (if h i then EHadamard else ESimple, Some (nat_of_ord i), Some (nat_of_ord (t i))).
Proof.
rewrite /view /= insubT ?ltn_ord // => lt; rewrite (_ : Sub _ _ = i); last by apply: val_inj.
by apply: (wire_viewE wires_wf (k := i)); left.
Qed.
End Wires.

Section Demo.
Variable C : numClosedFieldType.
Local Notation gate := (gate C nat_eqType).
Local Notation Lg := [finType of 'I_2].
Local Notation mat := (mat C Lg).

Lemma lay2_0 : lay2 0%N = ord0. Proof. by apply: val_inj; rewrite /= inordK. Qed.
Lemma lay2_1 : lay2 1%N = ord_max. Proof. by apply: val_inj; rewrite /= inordK. Qed.
Lemma sqrt2 : sqrtC (2%:R : C) != 0. Proof. by rewrite sqrtC_eq0 pnatr_eq0. Qed.

Lemma sum1tuple (F : seq bool -> C) : \sum_(b : 1.-tuple bool) F b = F [:: true] + F [:: false].
Proof.
rewrite (bigD1 [tuple true]) //= (bigD1 [tuple false]) //= big1 ?addr0 // => b /andP [n1 n2].
case/tupleP: b n1 n2 => b0 b; rewrite (tuple0 b); case: b0; by rewrite ?eqxx.
Qed.
Lemma hmat_unitary (a c : seq bool) : size a = 1%N -> size c = 1%N ->
  \sum_(b : 1.-tuple bool) hmat C a b * (hmat C c b)^* = (a == c)%:R.
Proof.
case: a => [|a [|? ?]] // _; case: c => [|c [|? ?]] // _.
rewrite (sum1tuple (fun b => hmat C [:: a] b * (hmat C [:: c] b)^* )) /hmat /ekernel /=.
have r0 : ((sqrtC 2%:R)^-1)^* = (sqrtC 2%:R)^-1 :> C by rewrite fmorphV geC0_conj // sqrtC_ge0 ler0n.
have rr : (sqrtC 2%:R)^-1 * (sqrtC 2%:R)^-1 = 2%:R^-1 :> C by rewrite -invrM ?unitfE ?sqrt2 // -expr2 sqrtCK.
have hh : 2%:R^-1 + 2%:R^-1 = 1 :> C by rewrite -mulr2n -[_ *+ 2]mulr_natl mulfV // pnatr_eq0.
rewrite eqseq_cons andbT; move: r0 rr hh; set r := (sqrtC _)^-1; set k := _^-1 => r0 rr hh.
case: a; case: c; rewrite /= !rmorphM ?rmorphN !rmorph1 ?mul1r r0 ?mulN1r ?mulrN ?mulNr ?opprK rr ?hh ?addNr ?addrN //.
Qed.
Lemma had_unitary q : unitary_gate Lg (hgate C q).
Proof. by apply: unitary_matrix_gate; split=> //=; exact: hmat_unitary. Qed.
Lemma had_entry (q : nat) (x y : basis Lg) : entry (gmx (hgate C q) lay2) x y =
  if [forall i, (i != lay2 q) ==> (x i == y i)] then ekernel C true (x (lay2 q)) (y (lay2 q)) else 0.
Proof.
rewrite /gmx entry_mx /gker /=; congr (if _ then _ else _); apply: eq_forallb => i; by rewrite inE.
Qed.

Lemma zqc_wf l O : (forall o q, List.In o l -> q \in op_qubits o -> (q < 2)%N) ->
  uniq (map fst O) -> uniq (map snd O) -> {subset map fst O <= [:: 0%N; 1%N]} -> wf_circuit (zqc l O : circuit nat_eqType Lg gate).
Proof.
move=> H U1 U2 S; split=> //=.
- move=> a b; rewrite !inE => /orP [/eqP ->|/eqP ->] /orP [/eqP ->|/eqP ->] //; rewrite /lay2 => /(congr1 val); by rewrite /= !inordK.
- by move=> o q Ho Hq; have := H o q Ho Hq; case: q {Hq} => [|[|]].
- split=> //= v _; rewrite !inE lay2_0 lay2_1; by case: v => [[|[|]]] // lt; rewrite -!val_eqE.
Qed.
Lemma outs_uniq : (uniq (map snd out_id) /\ uniq (map snd out_swap)) /\ size out_id = 2%N.
Proof. by rewrite /= !inE lay2_0 lay2_1. Qed.
Lemma zqc_maps l O : map fst O = [:: 0%N; 1%N] -> full_maps (zqc l O : circuit nat_eqType Lg gate).
Proof.
have S : Sorted.StronglySorted lt [:: 0%N; 1%N] by repeat constructor.
move=> H; split=> //=.
- rewrite /is_map List_map /output_map -map_comp (_ : map _ _ = [:: 0%N; 1%N]) //; by rewrite -H; apply: eq_map.
- by rewrite -(size_map fst) H.
Qed.
Lemma zqc_unitary l O : (forall o, List.In o l -> o = ZSwap C \/ exists q, o = Had C q) -> unitary_circuit (zqc l O : circuit nat_eqType Lg gate).
Proof. by move=> H o /H [->|[q ->]] //=; exact: had_unitary. Qed.
Definition sw : {perm 'I_2} := tperm (lay2 0) (lay2 1).
Lemma had_move : Pm C sw *m gmx (hgate C 0) lay2 = gmx (hgate C 1) lay2 *m Pm C sw.
Proof.
rewrite gmx_cov; congr (_ *m _); rewrite /gmx; apply: mxP => x y; rewrite !entry_mx /gker /=.
by rewrite /sw tpermL.
Qed.
Lemma had_sq q : gmx (hgate C q) lay2 *m adj (gmx (hgate C q) lay2) = 1%:M :> mat.
Proof. by apply: had_unitary => a b; rewrite !inE => /eqP -> /eqP ->. Qed.
End Demo.

Section Results.
Variable C : numClosedFieldType.
Local Notation gate := (gate C nat_eqType).
Local Notation Lg := [finType of 'I_2].
Local Notation mat := (mat C Lg).
Local Notation realises := (@realises C Lg nat_eqType).
Local Notation none := (fun _ : nat => false).
Let c1 : circuit nat_eqType Lg gate := zqc [:: Had C 0] out_id.
Let c2 : circuit nat_eqType Lg gate := zqc [:: ZSwap C; Had C 1] out_swap.
Let D := wires_diagram C sw (fun _ => false).

Lemma demo_wf : [/\ wf_circuit c1, wf_circuit c2, unitary_circuit c1 & unitary_circuit c2] /\ [/\ full_maps c1, full_maps c2, wf_diagram D & no_isolated D].
Proof.
have [[U1 U2] _] := outs_uniq; split; split.
- by apply: zqc_wf => //= o q [<-|[]]; rewrite /= !inE => // /eqP ->.
- apply: zqc_wf => //= o q [<-|[<-|[]]]; rewrite /= !inE; first by case/orP => /eqP ->.
  by move/eqP ->.
- by apply: zqc_unitary => o [<-|[]]; right; exists 0%N.
- by apply: zqc_unitary => o [<-|[<-|[]]]; [left|right; exists 1%N].
- exact: zqc_maps.
- exact: zqc_maps.
- exact: wires_wf.
- exact: wires_bare.
Qed.
Lemma demo_denotes : denotes D 1 (wire_op c2 *m adj (wire_op c1)).
Proof.
split; first exact: normr1.
exists 1; rewrite ?ltr01 // !scale1r wires_plain // /wire_op /= !mul1mx.
by rewrite -/sw -had_move -mulmxA had_sq mulmx1.
Qed.
Lemma zqc_combined l O : wf_circuit (zqc l O : circuit nat_eqType Lg gate) -> map fst O = [:: 0%N; 1%N] ->
  exists r (s : {perm 'I_2}), [/\ invertPermutations (output_map (zqc l O : circuit nat_eqType Lg gate)) (layout_map (zqc l O : circuit nat_eqType Lg gate)) 2 = Some r,
    as_perm (invert r) s & forall i v, (i, v) \in O -> s (lay2 i) = v].
Proof.
move=> W H; have [V [_ [R _]]] := computes_ex 0%N W.
by have [r [s [E A S _ _]]] := combined_circuit W (zqc_maps l H) R; exists r, s.
Qed.
Lemma demo_answer : zx_answer false false false none none c1 c2 D 1 = ZVerdict Equivalent.
Proof.
have [[W1 W2 _ _] _] := demo_wf.
have [//|r1 [s1 [E1 A1 S1]]] := zqc_combined W1; have [//|r2 [s2 [E2 A2 S2]]] := zqc_combined W2.
apply/(run_positive _ _ _ _ _ _ _ _ _ _ _ _ _ _ _ E1 E2); [by left|split=> //; split; last by rewrite /= eqxx].
split=> // i /ltP lt; right; pose j := Ordinal lt; rewrite -[i]/(nat_of_ord j).
exists (nat_of_ord j), (nat_of_ord (sw j)), (nat_of_ord (s1 j)); split; first exact: wires_view.
split; first exact: A1.
suff -> : s1 j = s2 (sw j) by exact: A2.
have : j = lay2 0%N \/ j = lay2 1%N.
  by rewrite lay2_0 lay2_1; case: j => [[|[|]]] // lt'; [left|right]; apply: val_inj.
have [e0 e1] : s1 (lay2 0%N) = lay2 0%N /\ s1 (lay2 1%N) = lay2 1%N by split; apply: S1; rewrite !inE eqxx ?orbT.
have [f0 f1] : s2 (lay2 0%N) = lay2 1%N /\ s2 (lay2 1%N) = lay2 0%N by split; apply: S2; rewrite !inE eqxx ?orbT.
by case=> ->; rewrite /sw ?tpermL ?tpermR ?e0 ?e1 ?f0 ?f1.
Qed.

(** the garbage test looks at the wire index, the permutation leads elsewhere *)
Let b1 : circuit nat_eqType Lg gate := zqc [::] [:: (0%N, lay2 1%N)].
Let b2 : circuit nat_eqType Lg gate := zqc [:: Had C 0] [:: (0%N, lay2 1%N)].
Let B := wires_diagram C (1%g : {perm 'I_2}) (fun i => i == lay2 0%N).
Let g0 := (fun i : nat => i == 0%N).
Lemma bad_wf : [/\ wf_circuit b1, wf_circuit b2, unitary_circuit b1 & unitary_circuit b2].
Proof.
split.
- by apply: zqc_wf => // x; rewrite !inE => ->.
- apply: zqc_wf => //= [o q [<-|[]]|x]; first by rewrite /= !inE => /eqP ->.
  by rewrite !inE => ->.
- exact: zqc_unitary.
- by apply: zqc_unitary => o [<-|[]]; right; exists 0%N.
Qed.
Lemma bad_sem : zx_sem B = gmx (hgate C 0) lay2.
Proof.
apply: mxP => x y; rewrite wires_entry had_entry (bigD1 (lay2 0%N)) //= eqxx perm1 (ekernel_sym).
case: forallP => [H|H].
  rewrite big1 ?mulr1 // => i ni; rewrite (negbTE ni) perm1 /ekernel eq_sym; by have := H i; rewrite ni /= => ->.
case: (boolP [exists i, (i != lay2 0%N) && (x i != y i)]) => [/existsP [i /andP [n1 n2]]|/existsPn X]; last first.
  by case: H => i; have := X i; rewrite negb_and negbK; case: eqP => //= _; rewrite negbK.
by rewrite (bigD1 i) //= (negbTE n1) perm1 /ekernel eq_sym (negbTE n2) mul0r mulr0.
Qed.
Lemma bad_answer : zx_answer false false false g0 g0 b1 b2 B 1 = ZVerdict Equivalent.
Proof.
rewrite /zx_answer; set o1 := output_map b1; set l1 := layout_map b1; set o2 := output_map b2; set l2 := layout_map b2.
have [-> ->] : o1 = [:: (0%N, 1%N)] /\ o2 = [:: (0%N, 1%N)] by rewrite /o1 /o2 /output_map /= lay2_1.
have [-> ->] : l1 = [:: (0%N, 0%N); (1%N, 1%N)] /\ l2 = [:: (0%N, 0%N); (1%N, 1%N)] by rewrite /l1 /l2 /layout_map /= lay2_0 lay2_1.
have E : invertPermutations [:: (0%N, 1%N)] [:: (0%N, 0%N); (1%N, 1%N)] 2 = Some [:: (0%N, 1%N); (1%N, 0%N)] by [].
apply/(run_positive _ _ _ _ _ _ _ _ _ _ _ _ _ _ _ E E); [by left|split=> //; split; last by rewrite /= eqxx].
split=> // -[|[|i]] /ltP // lt; [by left|right].
exists 1%N, 1%N, 0%N; split=> //; rewrite -[1%N]/(nat_of_ord (Ordinal lt)) wires_view perm1.
by rewrite lay2_0.
Qed.
Lemma bad_garbage (V1 V2 K : mat) : realises b1 V1 -> realises b2 V2 -> acts_only_on [set q : 'I_2 | g0 q && g0 q] K -> V2 <> K *m V1.
Proof.
move=> [s [S1 _ ->]] [t [T1 _ ->]] [A _] /=; rewrite !mulmx1 => E.
have e0 : s (lay2 0%N) = lay2 1%N by apply: (S1 0%N); rewrite inE eqxx.
have f0 : t (lay2 0%N) = lay2 1%N by apply: (T1 0%N); rewrite inE eqxx.
have EK : K = Pm C t *m gmx (hgate C 0) lay2 *m adj (Pm C s).
  by move: E; rewrite mul1mx => ->; rewrite -mulmxA (unitary_Pm C s) mulmx1.
pose x : basis Lg := [ffun _ => false]; pose y : basis Lg := [ffun i => i == lay2 1%N].
have n01 : lay2 1%N != lay2 0%N by rewrite lay2_0 lay2_1.
have nT : lay2 1%N \notin [set q : 'I_2 | g0 q && g0 q] by rewrite inE /g0 lay2_1.
have nxy : x (lay2 1%N) != y (lay2 1%N) by rewrite !ffunE eqxx.
have := A x y _ nT nxy.
rewrite EK adj_Pm entry_PmR entry_PmL had_entry invgK.
case: forallP => [_|H].
  rewrite !ffunE e0 eqxx /ekernel /= => /eqP; by rewrite mulf_eq0 oner_eq0 invr_eq0 (negbTE (sqrt2 C)).
case: H => i; apply/implyP => ni; rewrite !ffunE; case: (s i =P lay2 1%N) => // e; case/negP: ni; apply/eqP.
by apply: (@perm_inj _ s); rewrite e e0.
Qed.

(** a qubit that is not returned to 0 *)
Let a1 : circuit nat_eqType Lg gate := zqc [::] out_id.
Let a2 : circuit nat_eqType Lg gate := zqc [:: Had C 1] out_id.
Let A := wires_diagram C (1%g : {perm 'I_1}) (fun _ => false).
Lemma anc_wf : [/\ wf_circuit a1, wf_circuit a2, unitary_circuit a1 & unitary_circuit a2] /\ (full_maps a1 /\ full_maps a2).
Proof.
have [[U1 U2] _] := outs_uniq; split; [split|split; exact: zqc_maps].
- by apply: zqc_wf => // x; rewrite !inE => ->.
- by apply: zqc_wf => //= o q [<-|[]]; rewrite /= !inE => // /eqP -> //.
- exact: zqc_unitary.
- by apply: zqc_unitary => o [<-|[]]; right; exists 1%N.
Qed.
Lemma anc_V1 V : realises a1 V -> V = 1%:M.
Proof.
move=> [s [S _ ->]]; rewrite /= mulmx1; suff -> : s = 1%g by rewrite Pm_1.
apply/permP => i; rewrite perm1; have : i = lay2 0%N \/ i = lay2 1%N.
  by rewrite lay2_0 lay2_1; case: i => [[|[|]]] // lt'; [left|right]; apply: val_inj.
by case=> ->; [apply: (S 0%N)|apply: (S 1%N)]; rewrite !inE eqxx ?orbT.
Qed.
Lemma anc_V2 V : realises a2 V -> V = gmx (hgate C 1) lay2.
Proof.
move=> [s [S _ ->]]; rewrite /= mul1mx; suff -> : s = 1%g by rewrite Pm_1 mul1mx.
apply/permP => i; rewrite perm1; have : i = lay2 0%N \/ i = lay2 1%N.
  by rewrite lay2_0 lay2_1; case: i => [[|[|]]] // lt'; [left|right]; apply: val_inj.
by case=> ->; [apply: (S 0%N)|apply: (S 1%N)]; rewrite !inE eqxx ?orbT.
Qed.
Lemma with0_eq x y : (with0 x == with0 y) = (x == y).
Proof.
apply/eqP/eqP => [/ffunP /(_ (lay2 0%N))|-> //]; rewrite !ffunE eqxx /= => E; apply/ffunP => i; by rewrite (ord1 i).
Qed.
Lemma anc_denotes V1 V2 : realises a1 V1 -> realises a2 V2 -> denotes A 1 (post_selected V2 *m adj (post_selected V1)).
Proof.
move=> /anc_V1 -> /anc_V2 ->; split; first exact: normr1.
have sq0 : 0 < sqrtC (2%:R : C) by rewrite sqrtC_gt0 ltr0n.
exists (sqrtC 2%:R) => //; rewrite scale1r wires_plain // Pm_1.
have -> : post_selected (1%:M : mat) = 1%:M.
  by apply: mxP => x y; rewrite /post_selected entry_mx !entry_1 with0_eq.
have -> : post_selected (gmx (hgate C 1) lay2 : mat) = (sqrtC 2%:R)^-1 *: 1%:M.
  apply: mxP => x y; rewrite /post_selected entry_mx had_entry entry_scale entry_1 !ffunE.
  have -> : (lay2 1%N == lay2 0%N) = false by rewrite lay2_0 lay2_1.
  rewrite /ekernel /= mul1r; case: forallP => [H|H].
    suff -> : x == y by rewrite mulr1.
    rewrite -with0_eq; apply/eqP/ffunP => i; apply/eqP; have := H i; case: eqP => //= -> _; by rewrite !ffunE lay2_0 lay2_1.
  case: eqP => [xy|]; last by rewrite mulr0.
  by case: H => i; rewrite xy eqxx implybT.
by rewrite adj_1 mulmx1 scalerA mulfV ?scale1r // sqrt2.
Qed.
Lemma anc_answer : zx_run false true false none none (output_map a1) (layout_map a1) 2 (output_map a2) (layout_map a2) 2 (view true A) = ZVerdict Equivalent.
Proof.
have [-> ->] : output_map a1 = [:: (0%N, 0%N); (1%N, 1%N)] /\ output_map a2 = [:: (0%N, 0%N); (1%N, 1%N)] by rewrite /output_map /= lay2_0 lay2_1.
have [-> ->] : layout_map a1 = [:: (0%N, 0%N); (1%N, 1%N)] /\ layout_map a2 = [:: (0%N, 0%N); (1%N, 1%N)] by rewrite /layout_map /= lay2_0 lay2_1.
have E : invertPermutations [:: (0%N, 0%N); (1%N, 1%N)] [:: (0%N, 0%N); (1%N, 1%N)] 2 = Some [:: (0%N, 0%N); (1%N, 1%N)] by [].
apply/(run_positive _ _ _ _ _ _ _ _ _ _ _ _ _ _ _ E E); [by left|split=> //; split=> //].
split=> // -[|i] /ltP // lt; right; exists 0%N, 0%N, 0%N; split=> //.
by rewrite -[0%N]/(nat_of_ord (Ordinal lt)) wires_view perm1.
Qed.
Lemma anc_differ (V1 V2 : mat) w : realises a1 V1 -> realises a2 V2 -> ~ agree_up_to [set lay2 1%N] w V1 V2.
Proof.
move=> /anc_V1 -> /anc_V2 -> H.
pose x : basis Lg := [ffun _ => false]; pose y : basis Lg := [ffun i => i == lay2 1%N].
have px : [forall q in [set lay2 1%N], ~~ x q] by apply/forallP => q; rewrite ffunE implybT.
have xy : (x == y) = false by apply/negP => /eqP /ffunP /(_ (lay2 1%N)); rewrite !ffunE eqxx.
have h0 (z : basis Lg) : [forall i, (i != lay2 1%N) ==> (z i == x i)] -> entry (gmx (hgate C 1) lay2 : mat) z x = (sqrtC 2%:R)^-1.
  by move=> Hz; rewrite had_entry Hz /ekernel !ffunE andbF mul1r.
have e1 := congr1 (fun M : mat => entry M y x) H; have e2 := congr1 (fun M : mat => entry M x x) H.
move: e1 e2; rewrite /= !entry_scale !entry_projR !entry_1 eq_sym xy eqxx px !mulr1 !h0.
- by move=> <- /eqP; rewrite oner_eq0.
- by apply/forallP => i; rewrite eqxx implybT.
- by apply/forallP => i; rewrite !ffunE; case: (i =P _).
Qed.
End Results.
