(** Verdicts of the three checkers on the operators of the circuits. *)
From Coq Require Import BinNums.
From mathcomp Require Import all_ssreflect all_fingroup all_algebra.
From Verif Require Import Criterion Schemes DDCheck DDSpec DDProofs Qubits QubitsProofs QubitsProofs2 DDSem DDSemProofs DDSemProofs2 DDSemProofs3.
Set Implicit Arguments.
Unset Strict Implicit.
Unset Printing Implicit Defensive.
Import GRing.Theory Num.Theory.
Local Open Scope ring_scope.

Section P.
Variables (C : numClosedFieldType) (Lg : finType) (Ph : eqType).
Local Notation mat := (mat C Lg).
Local Notation vec := (vec C Lg).
Local Notation Pm := (@Pm C Lg).
Local Notation proj0 := (@proj0 C Lg).
Local Notation basis0 := (basis0 Lg).
Local Notation gate := (gate C Ph).
Local Notation op := (op Ph gate).
Local Notation circuit := (circuit Ph Lg gate).
Local Notation ops := (c_ops Ph Lg gate).
Local Notation keys := (c_keys Ph Lg gate).
Local Notation layout := (c_layout Ph Lg gate).

(** ** operations do not disturb other wires *)
Lemma zeros_agree (B : {set Lg}) (x z : basis Lg) : (forall q, q \in B -> x q = z q) ->
  [forall q in B, ~~ x q] = [forall q in B, ~~ z q].
Proof.
by move=> H; apply/forallP/forallP => K q; apply/implyP => Hq; move: (K q); rewrite Hq H.
Qed.
Lemma gate_proj0 (g : gate) (L : Ph -> Lg) (B : {set Lg}) : (forall q, q \in g_qubits g -> L q \notin B) ->
  gmx g L *m proj0 B = proj0 B *m gmx g L.
Proof.
move=> H; apply: mxP => x z; rewrite entry_projR entry_projL entry_mx mulrC.
rewrite /gker; case: ifP => _; last by case: eqP => [->|_] //; rewrite !mulr0.
case: ifP => [|_]; last by rewrite !mulr0.
move/forallP => Hx; rewrite (@zeros_agree B x z) // => q Hq; apply/eqP; move/implyP: (Hx q); apply.
by apply/negP => /mapP[t Ht E]; move: (H t); rewrite mem_cat Ht orbT -E Hq => /(_ isT).
Qed.
Lemma op_proj0 (L : Ph -> Lg) (B : {set Lg}) (o : op) : (forall q, q \in op_qubits o -> L q \notin B) ->
  sem_op L o *m proj0 B = proj0 B *m sem_op L o.
Proof.
elim/(@op_rect' Ph gate) : o => [g|a b|l IH] H.
- exact: gate_proj0.
- rewrite /= Pm_proj0; congr (proj0 _ *m _); apply/setP => q; apply/imsetP/idP.
  + case=> r Hr ->; rewrite tpermD //; apply/eqP => E.
    * by move: (H a); rewrite inE eqxx E Hr => /(_ isT).
    * by move: (H b); rewrite !inE eqxx orbT E Hr => /(_ isT).
  + move=> Hq; exists q => //; rewrite tpermD //; apply/eqP => E.
    * by move: (H a); rewrite inE eqxx E Hq => /(_ isT).
    * by move: (H b); rewrite !inE eqxx orbT E Hq => /(_ isT).
- rewrite sem_comp; elim: IH H => [|o r Ho Hr IHr] H /=; first by rewrite mulmx1 mul1mx.
  rewrite -mulmxA Ho ?mulmxA ?IHr //; last by move=> q Hq; apply: H; rewrite /= mem_cat Hq.
  by move=> q Hq; apply: H; rewrite /= mem_cat Hq orbT.
Qed.
Lemma ops_proj0 (L : Ph -> Lg) (B : {set Lg}) (l : seq op) :
  (forall o q, List.In o l -> q \in op_qubits o -> L q \notin B) -> sem_ops L l *m proj0 B = proj0 B *m sem_ops L l.
Proof.
elim: l => [|o r IH] H /=; first by rewrite mulmx1 mul1mx.
rewrite -mulmxA op_proj0 ?mulmxA ?IH //; last by move=> q; apply: H; left.
by move=> o' q Ho'; apply: H; right.
Qed.

(** ** ancillaries that are left alone *)
Lemma alone_proj0 (c : circuit) V (B : {set Lg}) : wf_circuit c -> realises c V -> (forall q, q \in B -> leaves_alone c q) ->
  V *m proj0 B = proj0 B *m V.
Proof.
case=> _ _ Hq _ [s [Ho Hu ->]] HB.
have Hs q : q \in B -> s q = q.
  by move=> /HB[_ [Hun|[i Ei Hi]]]; [exact: Hu|rewrite -{1}Ei; exact: Ho].
rewrite -mulmxA ops_proj0; last first.
  move=> o i HoI Hi; apply/negP => /HB[Hal _].
  by move: (Hal i (Hq _ _ HoI Hi) erefl o HoI); rewrite Hi.
rewrite mulmxA Pm_proj0 -mulmxA; congr (proj0 _ *m _); apply/setP => q; apply/imsetP/idP.
- by case=> r Hr ->; rewrite Hs.
- by move=> HqB; exists q => //; rewrite Hs.
Qed.
Lemma split_or (P Q : Lg -> Prop) (s : seq Lg) : (forall q, q \in s -> P q \/ Q q) ->
  exists B : {set Lg}, forall q, q \in s -> (q \in B -> P q) /\ (q \notin B -> Q q).
Proof.
elim: s => [|a s IH] H; first by exists set0.
have [B HB] := IH (fun q Hq => H q (mem_behead (s := a :: s) Hq)).
case: (H a (mem_head _ _)) => Ha.
- exists (a |: B) => q; rewrite inE => Hq; case: (eqVneq q a) => [->|Na]; rewrite ?setU11 //.
  by rewrite in_setU1 (negbTE Na) /=; apply: HB; move: Hq; rewrite (negbTE Na).
- exists (B :\ a) => q; rewrite inE => Hq; case: (eqVneq q a) => [->|Na]; rewrite ?setD11 //.
  by rewrite in_setD1 Na /=; apply: HB; move: Hq; rewrite (negbTE Na).
Qed.

Lemma agree_norm (V1 V2 : mat) A w : unitary V1 -> unitary V2 -> agree_up_to A w V1 V2 -> `|w| = 1.
Proof.
move=> U1 U2 H.
have E (V : mat) : unitary V -> adj (V *m proj0 A) *m (V *m proj0 A) = proj0 A.
  by move=> U; rewrite adj_mul adj_proj0 -mulmxA (mulmxA (adj V)) (unitary_left U) mul1mx proj0_idem.
have := E _ U1; rewrite H adj_scale -scalemxAl -scalemxAr scalerA (E _ U2).
move/(congr1 (fun M => entry M basis0 basis0)); rewrite entry_scale entry_proj0 eqxx zeros0 mulr1 mulrC -normCK => /eqP.
by rewrite sqrp_eq1 ?normr_ge0 // => /eqP.
Qed.

Lemma handled_close (c1 c2 : circuit) V1 V2 A w : wf_circuit c1 -> wf_circuit c2 -> unitary V1 -> unitary V2 ->
  realises c1 V1 -> realises c2 V2 -> ancillaries_handled c1 c2 A -> agree_up_to A w V1 V2 ->
  V1 *m proj0 A *m adj V2 = w *: proj0 A.
Proof.
move=> W1 W2 U1 U2 R1 R2 HA Hag.
have HE q : q \in enum A -> leaves_alone c1 q \/ leaves_alone c2 q by rewrite mem_enum; apply: HA.
have [B HB] := split_or HE.
have HB' q : q \in A -> (q \in B -> leaves_alone c1 q) /\ (q \notin B -> leaves_alone c2 q).
  by move=> Hq; apply: HB; rewrite mem_enum.
have EA : A = (A :&: B) :|: (A :\: B) by rewrite setID.
have D : [disjoint A :&: B & A :\: B].
  by rewrite -setI_eq0; apply/eqP/setP => q; rewrite !inE; case: (q \in B); rewrite ?andbF.
rewrite {2}EA; apply: (agree_close U1 U2 EA D erefl erefl D) => //.
- by apply: (alone_proj0 W1 R1) => q; rewrite inE => /andP[Hq Hb]; apply: (HB' q Hq).1.
- by apply: (alone_proj0 W2 R2) => q; rewrite inE => /andP[Hb Hq]; apply: (HB' q Hq).2.
- exact: agree_norm Hag.
Qed.

(** ** the alternating checker's verdict *)
Section Verdict.
Variables (isClose : mat -> bool) (weight : mat -> C).
Hypotheses (hc : closeness_test isClose) (hw : weight_of weight).
Variables (V1 V2 : mat) (A : {set Lg}).
Hypotheses (U1 : unitary V1) (U2 : unitary V2).
Local Notation F := (V1 *m proj0 A *m adj V2).
Local Notation verdict := (alt_check isClose weight F).

Lemma alt_sound :
  (verdict = Equivalent -> V1 *m proj0 A = V2 *m proj0 A) /\
  (verdict = EquivalentUpToGlobalPhase -> exists w, [/\ `|w| = 1, w != 1 & agree_up_to A w V1 V2]).
Proof.
rewrite /alt_check; case Hcl : (isClose F); last by [].
have Hd := hc.1 _ Hcl; have [N1 Hag _] := close_agree U1 U2 Hd; rewrite (hw Hd).
case: eqP => [E|NE]; split=> // _.
- by move: Hag; rewrite E /agree_up_to scale1r.
- by exists (entry F basis0 basis0); split=> //; apply/eqP.
Qed.
Lemma alt_verdict_vals : verdict = Equivalent \/ verdict = EquivalentUpToGlobalPhase \/ verdict = NotEquivalent.
Proof. by rewrite /alt_check; case: ifP => _; [case: ifP => _|]; auto. Qed.

Hypothesis hF : forall w, agree_up_to A w V1 V2 -> F = w *: proj0 A.
Lemma alt_complete : verdict = NotEquivalent -> forall w, ~ agree_up_to A w V1 V2.
Proof.
rewrite /alt_check => HN w Hag; move: HN.
have Nw : w != 0 by rewrite -normr_eq0 (agree_norm U1 U2 Hag) oner_eq0.
by rewrite (hF Hag) (hc.2 _ _ Nw); case: ifP.
Qed.
Lemma alt_exact :
  [/\ verdict = Equivalent <-> V1 *m proj0 A = V2 *m proj0 A,
      verdict = EquivalentUpToGlobalPhase <-> exists w, [/\ `|w| = 1, w != 1 & agree_up_to A w V1 V2] &
      verdict = NotEquivalent <-> forall w, ~ agree_up_to A w V1 V2].
Proof.
have [S1 S2] := alt_sound; have S3 := alt_complete.
have ag1 : V1 *m proj0 A = V2 *m proj0 A -> agree_up_to A 1 V1 V2 by rewrite /agree_up_to scale1r.
have uniqw w : V1 *m proj0 A = V2 *m proj0 A -> agree_up_to A w V1 V2 -> w = 1.
  move=> /ag1 H1 H2; have := hF H1; rewrite (hF H2) => /(congr1 (fun M => entry M basis0 basis0)).
  by rewrite !entry_scale entry_proj0 eqxx zeros0 !mulr1.
split; split=> // H.
- case: alt_verdict_vals => [//|[E|E]].
  + by have [w [_ Nw Hw]] := S2 E; rewrite (uniqw w H Hw) eqxx in Nw.
  + by case: (S3 E _ (ag1 H)).
- case: alt_verdict_vals => [E|[//|E]].
  + by have [w [_ Nw Hw]] := H; rewrite (uniqw w (S1 E) Hw) eqxx in Nw.
  + by have [w [_ _ Hw]] := H; case: (S3 E _ Hw).
- case: alt_verdict_vals => [E|[E|//]].
  + by case: (H _ (ag1 (S1 E))).
  + by have [w [_ _ Hw]] := S2 E; case: (H _ Hw).
Qed.
End Verdict.
End P.
