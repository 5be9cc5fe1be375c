(** Proofs for C69. *)
From Coq Require Import BinNums NArith QArith.
From mathcomp Require Import all_ssreflect all_fingroup all_algebra.
From Verif Require Import Criterion Config SeqFlow SeqSpec VerdictSpec VerdictProofs ParFlow ParSpec PropSeq PropPar Schemes DDCheck DDSpec DDProofs Qubits QubitsProofs QubitsProofs2
  DDSem DDSemProofs DDSemProofs2 DDSemProofs3 DDSemProofs4 DDSemProofs5 DDMain DDFlow DDFlowProofs EndToEnd EndToEndProofs Choice ParDecide PartialEq PartialEqProofs PropPartial PartialFlow.
Set Implicit Arguments.
Unset Strict Implicit.
Unset Printing Implicit Defensive.
Import GRing.Theory Num.Theory.
Local Open Scope ring_scope.

Section P.
Variables (C : numClosedFieldType) (Lg : finType) (Ph : eqType).
Local Notation mat := (mat C Lg).
Local Notation vec := (vec C Lg).
Local Notation gate := (gate C Ph).
Local Notation circuit := (circuit Ph Lg gate).
Variables (zero : Ph) (c1 c2 : circuit).
Hypotheses (W1 : wf_circuit c1) (W2 : wf_circuit c2) (U1 : unitary_circuit c1) (U2 : unitary_circuit c2).

Theorem partial_checkers : exists V1 V2, [/\ realises c1 V1, realises c2 V2 &
  forall (q : package C Lg Ph) (isClose : mat -> bool) (s : schemes) (A1 A2 G1 G2 : {set Lg}) (eps : C),
  exact_package q -> partial_test (G1 :&: G2) isClose -> good_schemes q c1 c2 s -> 0 < eps ->
  let A := A1 :&: A2 in
  forall (Stim Gen : Type) (stim : Stim -> vec) (e : env Stim Gen), describes_partial q isClose s zero c1 c2 A1 A2 G1 G2 eps stim e ->
    [/\ e_alt e <> MNotEquivalent -> partially_equivalent A (G1 :&: G2) V1 V2,
        one_leaves_alone c1 c2 A -> e_alt e = MNotEquivalent -> ~ partially_equivalent A (G1 :&: G2) V1 V2,
        A1 = A2 -> G1 = G2 -> (e_con e = MEquivalent /\ same_on_basis A G1 V1 V2) \/ (e_con e = MNotEquivalent /\ ~ same_on_basis A G1 V1 V2) &
        G1 = G2 -> forall t, fits A (stim t) -> e_sim e t = SNotEquivalent -> ~ partially_equivalent A G1 V1 V2]].
Proof.
have [V1 [ms1 [R1 K1]]] := computes_ex zero W1; have [V2 [ms2 [R2 K2]]] := computes_ex zero W2.
exists V1, V2; split=> // q isClose s A1 A2 G1 G2 eps hq hp hs eps0 A Stim Gen stim e [ch [ya Ya] [yc Yc] Ys].
have [hc hw hn hnw] := hq; have [[ha hcn hsm] [hcond nlc nls]] := hs.
have UV1 := unitary_realises W1 U1 R1; have UV2 := unitary_realises W2 U2 R2.
have [y Y _] : exists2 y, alt_run (q_equals q) (q_view q) zero (q_size q) (s_alt s) never c1 c2 A (alt_check isClose (q_weight q)) NoInformation
                      = RVerdict _ _ _ _ _ (alt_check isClose (q_weight q) (V1 *m proj0 C A *m adj V2)) y & x_s _ _ _ _ _ y = V1 *m proj0 C A *m adj V2.
  apply: (alt_never (q_view q) K1 K2) => // L; move: hcond; rewrite /alt_conditions L => //.
  by case=> HE HP; exact: placement_skips.
have E := verdict_inj (etrans (esym Ya) Y).
split.
- move=> ne; apply: (C59_alternating_sound hp UV1 UV2 (weight := q_weight q)); rewrite -E; by case: (e_alt e) ne.
- by move=> hl en; apply: (C59_alternating_exact (q_weight q) hp W1 W2 U1 U2 R1 R2 hl).1; rewrite -E en.
- move=> e12 g12; subst A2 G2.
  have [z Z] := con_partial_never (q_equals q) (q_view q) K1 K2 A1 A1 G1 G1 (con_check (q_close q) (q_nodeM q) (q_weightM q)) NoInformation hcn nlc.
  have Ec := verdict_inj2 (etrans (esym Yc) Z); rewrite /A setIid.
  have [H1 H2] := con_partial_verdict A1 G1 UV1 UV2 hc hn hnw.
  case: (e_con e) Ec => Ec; [left|exfalso|right].
  + by split=> //; apply/H1; rewrite -Ec.
  + by move: Ec; rewrite con_partial_exact //; case: ifP.
  + by split=> //; apply/H2; rewrite -Ec.
- move=> g12 t [un fit] Et HP; subst G2.
  have [z Z] := sim_partial_never (q_equals q) (q_view q) K1 K2 (stim t) G1 G1 (sim_check (q_nodeV q) (q_weightV q) eps) NoInformation hsm nls.
  have [ys Yst] := Ys t; have := verdict_injv (etrans (esym Yst) Z); rewrite Et /= => Es.
  apply: (@sim_never_refutes C Lg (q_nodeV q) (q_weightV q) eps eps0 (reduce_vec G1 (V1 *m stim t)) (reduce_vec G1 (V2 *m stim t)) _ _ 1).
  + by rewrite reduce_unit inner_unitary.
  + by rewrite reduce_unit inner_unitary.
  + by rewrite scale1r; apply/reduce_eq_prob; exact: HP.
  + by rewrite Es.
Qed.

Lemma answersI (P : Prop) v : v = Equivalent \/ v = EquivalentUpToGlobalPhase \/ v = NotEquivalent ->
  (v <> NotEquivalent -> P) -> (v = NotEquivalent -> ~ P) -> answers P v.
Proof.
case=> [->|[->|->]] h1 h2.
- have p : P by exact: h1. by split; split=> //; auto.
- have p : P by exact: h1. by split; split=> //; auto.
- have np := h2 erefl; by split; split=> //; case.
Qed.

Theorem partial_flows : exists V1 V2, [/\ realises c1 V1, realises c2 V2 &
  forall (Stim Gen : Type) (q : package C Lg Ph) (isClose : mat -> bool) (s : schemes) (A1 A2 G1 G2 : {set Lg}) (eps : C),
  exact_package q -> partial_test (G1 :&: G2) isClose -> good_schemes q c1 c2 s -> 0 < eps ->
  let A := A1 :&: A2 in let G := G1 :&: G2 in
  forall (stim : Stim -> vec) (e : env Stim Gen), describes_partial q isClose s zero c1 c2 A1 A2 G1 G2 eps stim e ->
    [/\ forall fuel pf (m : mgr Stim Gen) l g', runAlternatingChecker (exec (m_cfg m)) = true -> one_leaves_alone c1 c2 A ->
          (runSimulationChecker (exec (m_cfg m)) = true -> G1 = G2 /\ stimuli_fit A stim e (m_gen m)) ->
          choose_flow e (m_cfg m) = FSequential -> never_fires e (m_cfg m) -> no_exceptions e (m_cfg m) ->
          r_performed (m_res m) = 0%num -> draws e (m_gen m) l g' -> N.of_nat (length l) = maxSims (sim (m_cfg m)) -> (length l < fuel)%coq_nat ->
          (runSimulationChecker (exec (m_cfg m)) = true -> l = nil -> e_ndebug e = true) ->
          exists m', SeqFlow.run fuel pf e m = Returned m' /\ answers (partially_equivalent A G V1 V2) (r_eq (m_res m')),
        forall fuel pf (m : mgr Stim Gen) l g', runAlternatingChecker (exec (m_cfg m)) = false -> runConstructionChecker (exec (m_cfg m)) = true -> A1 = A2 -> G1 = G2 ->
          (runSimulationChecker (exec (m_cfg m)) = true -> stimuli_fit A stim e (m_gen m)) ->
          choose_flow e (m_cfg m) = FSequential -> never_fires e (m_cfg m) -> no_exceptions e (m_cfg m) ->
          r_performed (m_res m) = 0%num -> draws e (m_gen m) l g' -> N.of_nat (length l) = maxSims (sim (m_cfg m)) -> (length l < fuel)%coq_nat ->
          (runSimulationChecker (exec (m_cfg m)) = true -> l = nil -> e_ndebug e = true) ->
          exists m', SeqFlow.run fuel pf e m = Returned m' /\
            [/\ r_eq (m_res m') = Equivalent \/ r_eq (m_res m') = NotEquivalent, partially_equivalent A G V1 V2 -> r_eq (m_res m') = Equivalent,
                r_eq (m_res m') = Equivalent -> same_on_basis A G V1 V2 &
                runSimulationChecker (exec (m_cfg m)) = false -> r_eq (m_res m') = Equivalent <-> same_on_basis A G V1 V2] &
        forall c (g : Gen) pp x, runAlternatingChecker (exec c) = true -> runConstructionChecker (exec c) = false -> one_leaves_alone c1 c2 A ->
          (runSimulationChecker (exec c) = true -> G1 = G2 /\ stimuli_fit A stim e g) -> par_undisturbed e c g -> ~ zx_runs e c -> run_to_end e c g pp x ->
          p_main x = MReturned /\ answers (partially_equivalent A G V1 V2) (r_eq (p_res x))]].
Proof.
have [V1 [V2 [R1 R2 H]]] := partial_checkers.
exists V1, V2; split=> // Stim Gen q isClose s A1 A2 G1 G2 eps hq hp hs eps0 A G stim e hd.
have [HA HL HC HS] := H q isClose s A1 A2 G1 G2 eps hq hp hs eps0 Stim Gen stim e hd; rewrite -/A -/G in HA HL HC HS; split.
- move=> fuel pf m l g' ha hl hst hf hn hx hpf hdr hN hfu hnd.
  have [[hsim [n [x fr]]]|nr] : (runSimulationChecker (exec (m_cfg m)) = true /\ exists n x, first_refuting e l n x) \/
      (runSimulationChecker (exec (m_cfg m)) = true -> forall n x, ~ first_refuting e l n x).
    by case: (runSimulationChecker _); [case: (refuting_dec e l) => X; [left|right]|right].
  + have [m' [Rm E]] := verdict_refuted fuel pf e m l g' n x hf hn hx hpf hdr hN hfu hsim fr.
    exists m'; split=> //; rewrite E /=; apply: answersI => //; first by auto.
    have [g12 fit] := hst hsim; move=> _; case: fr => l1 l2 El _ Rx _; rewrite /G -g12 setIid; apply: (HS g12 x _ Rx).
    by apply: fit; move: hdr; rewrite El; exact: draws_prefix.
  + have [m' [Rm E]] := verdict_agree fuel pf e m l g' hf hn hx hpf hdr hN hfu nr hnd.
    have {}E : r_eq (m_res m') = mcrit (e_alt e) by rewrite E /= /VerdictSpec.table ha; case: (e_alt e).
    exists m'; split=> //; rewrite E; apply: answersI; first by case: (e_alt e); auto.
    * by move=> ne; apply: HA => ea; apply: ne; rewrite ea.
    * by move=> en; apply: HL => //; case: (e_alt e) en.
- move=> fuel pf m l g' ha hc e12 g12 hst hf hn hx hpf hdr hN hfu hnd.
  have GE : G = G1 by rewrite /G -g12 setIid.
  have [[hsim [n [x fr]]]|nr] : (runSimulationChecker (exec (m_cfg m)) = true /\ exists n x, first_refuting e l n x) \/
      (runSimulationChecker (exec (m_cfg m)) = true -> forall n x, ~ first_refuting e l n x).
    by case: (runSimulationChecker _); [case: (refuting_dec e l) => X; [left|right]|right].
  + have [m' [Rm E]] := verdict_refuted fuel pf e m l g' n x hf hn hx hpf hdr hN hfu hsim fr.
    exists m'; split=> //; rewrite E /=; split; [by right| |by []|by rewrite hsim].
    move=> pe; exfalso; case: fr => l1 l2 El _ Rx _; move: pe; rewrite GE; apply: (HS g12 x _ Rx).
    by apply: (hst hsim); move: hdr; rewrite El; exact: draws_prefix.
  + have [m' [Rm E]] := verdict_agree fuel pf e m l g' hf hn hx hpf hdr hN hfu nr hnd.
    have {}E : r_eq (m_res m') = mcrit (e_con e) by rewrite E /= /VerdictSpec.table ha hc; case: (e_con e).
    exists m'; split=> //; rewrite E GE; have [[-> sb]|[-> nsb]] := HC e12 g12.
      by split=> //; left.
    by split=> //; [right|move=> /pe_on_basis].
- move=> c g pp x ha hc hl hst [hf [hss [het [hne [hg hto]]]]] nz [hr hst'].
  have ret : p_main x = MReturned.
    apply: (C06_returns e c g pp x) => //.
    by move=> [ha' _]; rewrite ha in ha'.
  have hret : par_returned e c g pp x by split.
  split=> //; pose P v := match v with NotEquivalent => ~ partially_equivalent A G V1 V2 | Equivalent | EquivalentUpToGlobalPhase => partially_equivalent A G V1 V2 | _ => True end.
  have D : r_eq (p_res x) = Equivalent \/ r_eq (p_res x) = EquivalentUpToGlobalPhase \/ r_eq (p_res x) = NotEquivalent.
    case: (C15_definitive_without_zx_disagreement e c g pp x hss het hret hto (or_introl ha)).
    - by move=> [z1 [z2 _]]; apply: nz.
    - by case=> [[_ [_ <-]]|[_ <-]]; [case: (e_alt e)|case: (e_con e)]; auto.
    - by case=> [[_ [->|->]]|[-> _]]; auto.
  have [H1 [H2 _]] := C02_parallel_verdict_source e c g pp x hss het hret.
  have ex v : from_exact_checker e c v -> P v.
    by case=> [[_ [_ <-]]|[]]; rewrite ?hc // /P; case E: (e_alt e) => /=; [apply: HA; rewrite E|apply: HA; rewrite E|exact: HL].
  have zx v : ~ from_zx_checker e c v by case=> z1 [z2 _]; apply: nz.
  apply: answersI => // E.
  - by case: D E => [E|[E|->]] // _; case: (H1 ltac:(auto)) => [/ex|/zx] //; rewrite E.
  - case: (H2 E) => [/ex|[rs [y [dy Ey]]]]; first by rewrite E.
    by have [g12 fit] := hst rs; rewrite /G -g12 setIid; exact: (HS g12 y (fit y dy) Ey).
Qed.

(** environments as described exist *)
Lemma describes_partial_ex (q : package C Lg Ph) (isClose : mat -> bool) (s : schemes) (A1 A2 G1 G2 : {set Lg}) (eps : C) (Stim Gen : Type) (stim : Stim -> vec) (e : env Stim Gen) :
  good_schemes q c1 c2 s -> exists ch a c sm, describes_partial q isClose s zero c1 c2 A1 A2 G1 G2 eps stim (with_verdicts e ch a c sm).
Proof.
move=> [[ha hcn hsm] [hcond nlc nls]].
have [V1 [ms1 [R1 K1]]] := computes_ex zero W1; have [V2 [ms2 [R2 K2]]] := computes_ex zero W2.
have [ya Ya _] : exists2 y, alt_run (q_equals q) (q_view q) zero (q_size q) (s_alt s) never c1 c2 (A1 :&: A2) (alt_check isClose (q_weight q)) NoInformation
                      = RVerdict _ _ _ _ _ (alt_check isClose (q_weight q) (V1 *m proj0 C (A1 :&: A2) *m adj V2)) y & x_s _ _ _ _ _ y = V1 *m proj0 C (A1 :&: A2) *m adj V2.
  apply: (alt_never (q_view q) K1 K2) => // L; move: hcond; rewrite /alt_conditions L => //.
  by case=> HE HP; exact: placement_skips.
have [yc Yc] := con_partial_never (q_equals q) (q_view q) K1 K2 A1 A2 G1 G2 (con_check (q_close q) (q_nodeM q) (q_weightM q)) NoInformation hcn nlc.
have HS t := sim_partial_never (q_equals q) (q_view q) K1 K2 (stim t) G1 G2 (sim_check (q_nodeV q) (q_weightV q) eps) NoInformation hsm nls.
have [a Ea] : exists a, mcrit a = alt_check isClose (q_weight q) (V1 *m proj0 C (A1 :&: A2) *m adj V2).
  by rewrite /alt_check; do ?case: ifP => _; [exists MEquivalent|exists MGlobalPhase|exists MNotEquivalent].
have [c Ec] : exists c, mcrit c = con_check (q_close q) (q_nodeM q) (q_weightM q) (reduce_mx G1 (V1 *m proj0 C A1), reduce_mx G2 (V2 *m proj0 C A2)).
  by rewrite /con_check /=; do ?case: ifP => _; first [by exists MEquivalent|by exists MGlobalPhase|by exists MNotEquivalent].
pose sm (t : Stim) : sverdict := match sim_check (q_nodeV q) (q_weightV q) eps (reduce_vec G1 (V1 *m stim t), reduce_vec G2 (V2 *m stim t)) with
  | Equivalent => SEquivalent | EquivalentUpToPhase => SPhase | _ => SNotEquivalent end.
have Em t : scrit (sm t) = sim_check (q_nodeV q) (q_weightV q) eps (reduce_vec G1 (V1 *m stim t), reduce_vec G2 (V2 *m stim t)).
  by rewrite /sm /sim_check /=; do ?case: ifP => _.
exists (can_handle c1 c2 A1 A2), a, c, sm; split=> //=.
- by exists ya; rewrite Ea.
- by exists yc; rewrite Ec.
- by move=> t; have [y Y] := HS t; exists y; rewrite Em.
Qed.
End P.
