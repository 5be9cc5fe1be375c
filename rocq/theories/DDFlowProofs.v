(** Soundness of the whole flow for the decision-diagram checkers. *)
From Coq Require Import BinNums QArith.
From mathcomp Require Import all_ssreflect all_fingroup all_algebra.
From Verif Require Import Criterion Config SeqFlow SeqSpec ParFlow ParSpec PropSeq PropPar Schemes DDCheck DDSpec DDProofs Qubits QubitsProofs QubitsProofs2 DDSem
  DDSemProofs2 DDSemProofs4 DDSemProofs5 DDMain DDFlow.
Set Implicit Arguments.
Unset Strict Implicit.
Unset Printing Implicit Defensive.
Import GRing.Theory Num.Theory.
Local Open Scope ring_scope.

Section P.
Variables (C : numClosedFieldType) (Lg : finType) (Ph : eqType).
Local Notation mat := (mat C Lg).
Local Notation vec := (vec C Lg).
Local Notation gate := (gate C Ph).
Local Notation circuit := (circuit Ph Lg gate).
Variables (zero : Ph) (c1 c2 : circuit).
Hypotheses (W1 : wf_circuit c1) (W2 : wf_circuit c2) (U1 : unitary_circuit c1) (U2 : unitary_circuit c2).

Lemma verdict_inj (a b : criterion) x y : RVerdict Ph Lg gate mat mat a x = RVerdict Ph Lg gate mat mat b y -> a = b. Proof. by case. Qed.
Lemma verdict_inj2 (a b : criterion) x y : RVerdict Ph Lg gate mat (mat * mat)%type a x = RVerdict Ph Lg gate mat (mat * mat)%type b y -> a = b. Proof. by case. Qed.
Lemma verdict_injv (a b : criterion) x y : RVerdict Ph Lg gate mat (vec * vec)%type a x = RVerdict Ph Lg gate mat (vec * vec)%type b y -> a = b. Proof. by case. Qed.

(** every checker tells the truth *)
Theorem checkers_true : exists V1 V2, [/\ realises c1 V1, realises c2 V2 &
  forall (q : package C Lg Ph) (s : schemes) (A1 A2 : {set Lg}) (eps : C), exact_package q -> good_schemes q c1 c2 s -> 0 < eps ->
  let A := A1 :&: A2 in
  forall (Stim Gen : Type) (stim : Stim -> vec) (e : env Stim Gen),
    describes q s zero c1 c2 A1 A2 eps stim e ->
    [/\ (can_handle c1 c2 A1 A2 -> ancillaries_handled c1 c2 A) -> e_canHandle e = true -> true_verdict A V1 V2 (mcrit (e_alt e)),
        A1 = A2 -> true_verdict A V1 V2 (mcrit (e_con e)) &
        forall t, fits A (stim t) -> e_sim e t = SNotEquivalent -> true_verdict A V1 V2 NotEquivalent]].
Proof.
have [V1 [V2 [R1 R2 H]]] := runs_compute zero W1 W2 U1.
exists V1, V2; split=> // q s A1 A2 eps hq hs eps0 A Stim Gen stim e [ch [ya Ya] [yc Yc] Ys].
have [hc hw hn hnw] := hq; have [[ha hcn hsm] [hcond nlc nls]] := hs.
have UV1 := unitary_realises W1 U1 R1; have UV2 := unitary_realises W2 U2 R2.
split.
- rewrite ch => hcan hch; have hA := hcan hch; have [HA _ _] := H (q_equals q) (q_view q) (s_alt s) NoInformation ha.
  have [y Y _] := HA (q_size q) A (alt_check (q_close q) (q_weight q)) hcond.
  have E := verdict_inj (etrans (esym Ya) Y).
  have hF w : agree_up_to A w V1 V2 -> V1 *m proj0 C A *m adj V2 = w *: proj0 C A by move=> Hw; exact: (handled_close W1 W2 UV1 UV2 R1 R2 hA Hw).
  have [E1 E2 E3] := alt_exact hc hw UV1 UV2 hF.
  rewrite E; case: (alt_verdict_vals (q_close q) (q_weight q) V1 V2 A) => [EE|[EE|EE]]; rewrite EE /=; [exact: (E1.1 EE)|exact: (E2.1 EE)|exact: (E3.1 EE)].
- move=> e12; have [_ HC _] := H (q_equals q) (q_view q) (s_con s) NoInformation hcn.
  have [y Y _] := HC A1 A2 (con_check (q_close q) (q_nodeM q) (q_weightM q)) nlc.
  have E : mcrit (e_con e) = con_check (q_close q) (q_nodeM q) (q_weightM q) (V1 *m proj0 C A, V2 *m proj0 C A).
    by rewrite (verdict_inj2 (etrans (esym Yc) Y)) /A -e12 setIid.
  have [E1 E2 E3] := con_exact hc hn hnw A UV1 UV2.
  have V : let v := con_check (q_close q) (q_nodeM q) (q_weightM q) (V1 *m proj0 C A, V2 *m proj0 C A) in
      v = Equivalent \/ v = EquivalentUpToGlobalPhase \/ v = NotEquivalent.
    by rewrite /con_check /=; do ?case: ifP => ?; auto.
  rewrite E; case: V => [EE|[EE|EE]]; rewrite EE /=; [exact: (E1.1 EE)|exact: (E2.1 EE)|exact: (E3.1 EE)].
- move=> t [un fit] Et w Hw; have [_ _ HS] := H (q_equals q) (q_view q) (s_sim s) NoInformation hsm.
  have [y Y _] := HS (stim t) (sim_check (q_nodeV q) (q_weightV q) eps) nls.
  have [ys Yst] := Ys t; have := verdict_injv (etrans (esym Yst) Y); rewrite Et /= => E.
  apply: (@sim_never_refutes C Lg (q_nodeV q) (q_weightV q) eps eps0 (V1 *m stim t) (V2 *m stim t) _ _ w).
  + by rewrite inner_unitary.
  + by rewrite inner_unitary.
  + by rewrite -fit 2!mulmxA Hw -scalemxAl.
  + by rewrite E.
Qed.

(** ** the flows *)
Theorem flows_true : exists V1 V2, [/\ realises c1 V1, realises c2 V2 &
  forall (q : package C Lg Ph) (s : schemes) (A1 A2 : {set Lg}) (eps : C), exact_package q -> good_schemes q c1 c2 s -> 0 < eps ->
  let A := A1 :&: A2 in
  forall (Stim Gen : Type) (stim : Stim -> vec) (e : env Stim Gen),
    describes q s zero c1 c2 A1 A2 eps stim e ->
    (e_transformable e = true -> zcrit (e_ancilla e) (e_zx e) = Equivalent \/ zcrit (e_ancilla e) (e_zx e) = EquivalentUpToGlobalPhase ->
       true_verdict A V1 V2 (zcrit (e_ancilla e) (e_zx e))) ->
    (forall fuel pf m m', ancillaries_fit (m_cfg m) c1 c2 A1 A2 -> stimuli_fit A stim e (m_gen m) -> choose_flow e (m_cfg m) = FSequential -> SeqFlow.run fuel pf e m = Returned m' ->
       definitive (r_eq (m_res m')) -> true_verdict A V1 V2 (r_eq (m_res m'))) /\
    (forall c g pp x, ancillaries_fit c c1 c2 A1 A2 -> stimuli_fit A stim e g -> sane_sims c -> enough_threads e c -> par_returned e c g pp x ->
       definitive (r_eq (p_res x)) -> true_verdict A V1 V2 (r_eq (p_res x)))].
Proof.
have [V1 [V2 [R1 R2 H]]] := checkers_true; exists V1, V2; split=> // q s A1 A2 eps hq hs eps0 A Stim Gen stim e hd hz.
have [HA HC HS] := H _ _ _ _ _ hq hs eps0 _ _ _ _ hd; split.
- move=> fuel pf m m' [fa fc] hst hf hr hdef; apply: (@C01_sound _ _ (true_verdict A V1 V2) fuel pf e m m') => //.
  - by move=> ra; apply: HA; exact: fa.
  - by move=> rc; apply: HC; exact: fc.
  by move=> t dt Et; exact: (HS t (hst t dt) Et).
- move=> c g pp x [fa fc] hst h1 h2 h3 hdef; apply: (@C02_parallel_sound _ _ (true_verdict A V1 V2) e c g pp x) => //.
  - by move=> ra; apply: HA; exact: fa.
  - by move=> rc; apply: HC; exact: fc.
  by move=> t dt Et; exact: (HS t (hst t dt) Et).
Qed.

(** every pair of circuits has such an environment, whatever the other components are *)
Definition with_verdicts (Stim Gen : Type) (e : env Stim Gen) ch a c sm : env Stim Gen :=
  mkEnv (e_empty e) (e_varfree e) (e_transformable e) (e_ancilla e) ch (e_profile_ok e) (e_zx_perm_ok e) (e_ndebug e)
    a c sm (e_zx e) (e_gen e) (e_clear e) (e_fire e) (e_notice e).
Variables (q : package C Lg Ph) (s : schemes) (A1 A2 : {set Lg}) (eps : C).
Hypothesis hs : good_schemes q c1 c2 s.
Local Notation A := (A1 :&: A2).
Lemma describes_ex (Stim Gen : Type) (stim : Stim -> vec) (e : env Stim Gen) :
  exists ch a c sm, describes q s zero c1 c2 A1 A2 eps stim (with_verdicts e ch a c sm).
Proof.
have [[ha hcn hsm] [hcond nlc nls]] := hs.
have [V1 [V2 [R1 R2 H]]] := runs_compute zero W1 W2 U1.
have [HA _ _] := H (q_equals q) (q_view q) (s_alt s) NoInformation ha.
have [ya Ya _] := HA (q_size q) A (alt_check (q_close q) (q_weight q)) hcond.
have [_ HC _] := H (q_equals q) (q_view q) (s_con s) NoInformation hcn.
have [yc Yc _] := HC A1 A2 (con_check (q_close q) (q_nodeM q) (q_weightM q)) nlc.
have [_ _ HS] := H (q_equals q) (q_view q) (s_sim s) NoInformation hsm.
have [a Ea] : exists a, mcrit a = alt_check (q_close q) (q_weight q) (V1 *m proj0 C A *m adj V2).
  by rewrite /alt_check; do ?case: ifP => _; [exists MEquivalent|exists MGlobalPhase|exists MNotEquivalent].
have [c Ec] : exists c, mcrit c = con_check (q_close q) (q_nodeM q) (q_weightM q) (V1 *m proj0 C A1, V2 *m proj0 C A2).
  by rewrite /con_check /=; do ?case: ifP => _; first [by exists MEquivalent|by exists MGlobalPhase|by exists MNotEquivalent].
pose sm (t : Stim) : sverdict := match sim_check (q_nodeV q) (q_weightV q) eps (V1 *m stim t, V2 *m stim t) with
  | Equivalent => SEquivalent | EquivalentUpToPhase => SPhase | _ => SNotEquivalent end.
have Em t : scrit (sm t) = sim_check (q_nodeV q) (q_weightV q) eps (V1 *m stim t, V2 *m stim t).
  by rewrite /sm /sim_check /=; do ?case: ifP => _.
exists (can_handle c1 c2 A1 A2), a, c, sm; split=> //=.
- by exists ya; rewrite Ea.
- by exists yc; rewrite Ec.
- by move=> t; have [y Y _] := HS (stim t) (sim_check (q_nodeV q) (q_weightV q) eps) nls; exists y; rewrite Em.
Qed.
End P.

(** ** the precondition of the alternating checker *)
Section Handle.
Variables (C : numClosedFieldType) (Lg : finType) (Ph : eqType).
Local Notation gate := (gate C Ph).
Local Notation circuit := (circuit Ph Lg gate).
Local Notation keys := (c_keys Ph Lg gate).
Local Notation layout := (c_layout Ph Lg gate).
Local Notation ops := (c_ops Ph Lg gate).
Local Notation output := (c_output Ph Lg gate).

Lemma physical_some (c : circuit) (v : Lg) i : physical_of c v = Some i -> i \in keys c /\ layout c i = v.
Proof.
rewrite /physical_of => H; have : i \in [seq i <- keys c | layout c i == v].
  by case: (filter _ _) H => [|a r] //= [<-]; rewrite inE eqxx.
by rewrite mem_filter => /andP[/eqP].
Qed.
Lemma physical_none (c : circuit) (v : Lg) : physical_of c v = None -> forall i, i \in keys c -> layout c i <> v.
Proof.
rewrite /physical_of => H i Hi E; have : i \in [seq i <- keys c | layout c i == v] by rewrite mem_filter E eqxx.
by case: (filter _ _) H.
Qed.
Lemma physical_uniq (c : circuit) (v : Lg) i : wf_circuit c -> i \in keys c -> layout c i = v -> physical_of c v = Some i.
Proof.
move=> [_ I _ _] Hi E; case H : (physical_of c v) => [j|]; last by have := physical_none H Hi.
by have [Hj Ej] := physical_some H; congr Some; apply: I => //; rewrite Ej E.
Qed.
Lemma idleP (c : circuit) i : reflect (forall o, List.In o (ops c) -> i \notin op_qubits o) (is_idle c i).
Proof.
rewrite /is_idle; elim: (ops c) => [|o r IH] /=; first by constructor.
apply: (iffP andP) => [[H1 /IH H2] x [<-|Hx]|H] //; first exact: H2.
by split; [apply: H; left|apply/IH => x Hx; apply: H; right].
Qed.

Lemma not_idle (c : circuit) i : is_idle c i = false -> exists2 o, List.In o (ops c) & i \in op_qubits o.
Proof.
rewrite /is_idle; elim: (ops c) => [|o r IH] //=; case E : (i \in op_qubits o) => H; first by exists o => //; left.
by have [o' H1 H2] := IH H; exists o' => //; right.
Qed.
Lemma can_handle_exact (c1 c2 : circuit) (B1 B2 : {set Lg}) : wf_circuit c1 -> wf_circuit c2 ->
  can_handle c1 c2 B1 B2 = false <->
  exists v, [/\ v \in B1, v \in B2 & (acted_upon c1 v /\ acted_upon c2 v) \/ (absent c1 v /\ absent c2 v)].
Proof.
move=> W1 W2; split.
- move/negbT/forallPn => [v]; rewrite negb_imply => /andP[/andP[H1 H2]].
  case E1 : (physical_of c1 v) => [i|]; case E2 : (physical_of c2 v) => [j|] // H; exists v; split=> //.
  + move: H; rewrite negb_or => /andP[/negbTE N1 /negbTE N2]; left.
    have [K1 L1] := physical_some E1; have [K2 L2] := physical_some E2.
    by split; [exists i|exists j]; split=> //; apply: not_idle.
  + by right; split; apply: physical_none.
- move=> [v [H1 H2 H]]; apply/negbTE/forallPn; exists v; rewrite H1 H2 /=.
  case: H => [[[i [K1 L1 [o1 O1 Q1]]] [j [K2 L2 [o2 O2 Q2]]]]|[N1 N2]].
  + rewrite (physical_uniq W1 K1 L1) (physical_uniq W2 K2 L2) negb_or; apply/andP; split.
    * by apply/idleP => /(_ _ O1); rewrite Q1.
    * by apply/idleP => /(_ _ O2); rewrite Q2.
  + case E1 : (physical_of c1 v) => [i|]; first by have [K1 L1] := physical_some E1; case: (N1 _ K1 L1).
    by case E2 : (physical_of c2 v) => [i|] //; have [K2 L2] := physical_some E2; case: (N2 _ K2 L2).
Qed.

Lemma can_handle_handled (c1 c2 : circuit) A1 A2 : let A := A1 :&: A2 in wf_circuit c1 -> wf_circuit c2 -> plain_outputs c1 A -> plain_outputs c2 A ->
  can_handle c1 c2 A1 A2 -> ancillaries_handled c1 c2 A.
Proof.
move=> A; have alone (c : circuit) v i : wf_circuit c -> plain_outputs c A -> v \in A -> physical_of c v = Some i -> is_idle c i -> leaves_alone c v.
  move=> W P Hv E /idleP I; have [K L] := physical_some E.
  have U j : j \in keys c -> layout c j = v -> j = i.
    by move=> Kj Lj; have := physical_uniq W Kj Lj; rewrite E => -[].
  split; first by move=> j Kj Lj o Ho; rewrite (U j Kj Lj); exact: I.
  case: (P v i Hv K L) => [O|[O1 O2]]; first by right; exists i.
  by left; split=> // j Kj Lj; rewrite (U j Kj Lj).
have miss (c : circuit) v : wf_circuit c -> physical_of c v = None -> leaves_alone c v.
  move=> [_ _ _ [_ _ _ S]] E; split; first by move=> j Kj /(physical_none E Kj).
  left; split; last by move=> j Kj /(physical_none E Kj).
  by apply/negP => /S /mapP[j Kj /esym]; exact: physical_none.
move=> W1 W2 P1 P2 /forallP H v Hv; move: (H v) (Hv); rewrite inE => HH /andP[h1 h2]; move: HH; rewrite h1 h2 /=.
case E1 : (physical_of c1 v) => [i|]; case E2 : (physical_of c2 v) => [j|] //.
- case/orP => I; [left|right]; by apply: alone I.
- by move=> _; right; apply: miss.
- by move=> _; left; apply: miss.
Qed.
End Handle.
