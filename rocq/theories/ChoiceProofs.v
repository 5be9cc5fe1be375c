(** Which of the exact checkers is configured. *)
From Coq Require Import BinNums NArith.
From mathcomp Require Import all_ssreflect all_fingroup all_algebra.
From Verif Require Import Criterion Config SeqFlow SeqSpec Schemes DDCheck DDSpec Qubits QubitsProofs QubitsProofs2 DDSem DDSemProofs2 DDSemProofs3 DDSemProofs4 DDSemProofs5
  DDMain DDFlow DDFlowProofs DDDemo DDDemoProofs DDDemoProofs2 VerdictSpec VerdictProofs EndToEndProofs Choice.
Set Implicit Arguments.
Unset Strict Implicit.
Unset Printing Implicit Defensive.
Import GRing.Theory Num.Theory.
Local Open Scope ring_scope.

Section C.
Variables (C : numClosedFieldType) (Lg : finType) (Ph : eqType).
Local Notation mat := (mat C Lg).
Local Notation vec := (vec C Lg).
Local Notation gate := (gate C Ph).
Local Notation circuit := (circuit Ph Lg gate).
Local Notation proj0 := (proj0 C).

Lemma decides_inj (A : {set Lg}) (V1 V2 : mat) (v v' : criterion) : unitary V1 -> unitary V2 ->
  (forall u, u = v \/ u = v' -> [/\ u = Equivalent <-> V1 *m proj0 A = V2 *m proj0 A,
      u = EquivalentUpToGlobalPhase <-> exists w, [/\ `|w| = 1, w != 1 & agree_up_to A w V1 V2] &
      u = NotEquivalent <-> forall w, ~ agree_up_to A w V1 V2]) -> v = v'.
Proof.
move=> U1 U2 H; have [e1 p1 n1] := H v (or_introl erefl); have [e2 p2 n2] := H v' (or_intror erefl).
case: (eqVneq (V1 *m proj0 A) (V2 *m proj0 A)) => [E|NE]; first by rewrite (e1.2 E) (e2.2 E).
have ag w : agree_up_to A w V1 V2 -> v = EquivalentUpToGlobalPhase /\ v' = EquivalentUpToGlobalPhase.
  move=> Hw; have X : exists w, [/\ `|w| = 1, w != 1 & agree_up_to A w V1 V2].
    exists w; split=> //; first exact: agree_norm Hw.
    by apply: contra_neqN NE => /eqP E1; move: Hw; rewrite /agree_up_to E1 scale1r.
  by rewrite (p1.2 X) (p2.2 X).
have [E|N] : v = EquivalentUpToGlobalPhase \/ v <> EquivalentUpToGlobalPhase by case: (v); first [by left|by right].
  by have [w [_ _ /ag [-> ->]]] := p1.1 E.
have no w : ~ agree_up_to A w V1 V2 by move=> /ag [E _].
by rewrite (n1.2 no) (n2.2 no).
Qed.

(** the construction checker's positive verdicts, each circuit with its own ancillaries *)
Lemma con_union (isClose : mat -> bool) (sameNode sameWeight : mat -> mat -> bool) (V1 V2 : mat) (A1 A2 : {set Lg}) :
  closeness_test isClose -> @same_node_test C [lmodType C of mat] sameNode -> unitary V1 -> unitary V2 ->
  con_check isClose sameNode sameWeight (V1 *m proj0 A1, V2 *m proj0 A2) <> NotEquivalent ->
  exists2 w, `|w| = 1 & agree_up_to (A1 :|: A2) w V1 V2.
Proof.
move=> hc hn U1 U2.
have PL : proj0 A1 *m proj0 (A1 :|: A2) = proj0 (A1 :|: A2) by rewrite proj0_mul setUA setUid.
have PR : proj0 A2 *m proj0 (A1 :|: A2) = proj0 (A1 :|: A2) by rewrite proj0_mul setUCA setUid.
suff H : con_check isClose sameNode sameWeight (V1 *m proj0 A1, V2 *m proj0 A2) <> NotEquivalent -> exists w, agree_up_to (A1 :|: A2) w V1 V2.
  by move=> /H [w Hw]; exists w => //; exact: agree_norm Hw.
rewrite /con_check; case: ifP => [/hn [w _ E] _|_].
  by exists w; move/(congr1 (mulmx^~ (proj0 (A1 :|: A2)))): E; rewrite -scalemxAl -!mulmxA PL PR.
case: ifP => [cl _|//]; move: cl; case: ifP => _.
  case/andP => /(close_self hc U1)[w1 N1 E1] /(close_self hc U2)[w2 N2 E2]; exists (w1 / w2).
  rewrite /agree_up_to -[in LHS]PL -[in RHS]PR !mulmxA E1 E2 -!scalemxAl PL PR scalerA divfK //.
rewrite adj_mul adj_proj0 mulmxA -(mulmxA V1) proj0_mul => Hcl.
by have [_ Hag _] := close_agree U1 U2 (hc.1 _ Hcl); exists (entry (V1 *m proj0 (A1 :|: A2) *m adj V2) (basis0 Lg) (basis0 Lg)).
Qed.

Variables (zero : Ph) (c1 c2 : circuit) (A : {set Lg}).
Hypotheses (W1 : wf_circuit c1) (W2 : wf_circuit c2) (U1 : unitary_circuit c1) (U2 : unitary_circuit c2) (hA : ancillaries_handled c1 c2 A).

Lemma configured_decides (c : config) : exact_configured c ->
  runAlternatingChecker (exec c) = true /\ (can_handle c1 c2 A A -> ancillaries_handled c1 c2 (A :&: A)) \/
  runAlternatingChecker (exec c) = false /\ runConstructionChecker (exec c) = true /\ A = A.
Proof. by rewrite /exact_configured setIid => -[->|E]; [left|case: (runAlternatingChecker _); [left|right]]. Qed.

Lemma same_answer (q q' : package C Lg Ph) (s s' : schemes) (eps eps' : C)
    (Stim Gen Stim' Gen' : Type) (stim : Stim -> vec) (stim' : Stim' -> vec) (e : env Stim Gen) (e' : env Stim' Gen') fuel fuel' pf pf' m m' :
  exact_package q -> good_schemes q c1 c2 s -> exact_package q' -> good_schemes q' c1 c2 s' -> 0 < eps -> 0 < eps' ->
  describes q s zero c1 c2 A A eps stim e -> describes q' s' zero c1 c2 A A eps' stim' e' ->
  stimuli_fit A stim e (m_gen m) -> stimuli_fit A stim' e' (m_gen m') ->
  undisturbed fuel e m -> undisturbed fuel' e' m' -> exact_configured (m_cfg m) -> exact_configured (m_cfg m') ->
  exists r r', [/\ SeqFlow.run fuel pf e m = Returned r, SeqFlow.run fuel' pf' e' m' = Returned r' & r_eq (m_res r) = r_eq (m_res r')].
Proof.
move=> hq hs hq' hs' eps0 eps0' hd hd' hf hf' [x1 [x2 [x3 [x4 [l [g [x5 [x6 [x7 x8]]]]]]]]] [y1 [y2 [y3 [y4 [l' [g' [y5 [y6 [y7 y8]]]]]]]]] hc hc'.
have [V1 [V2 [R1 R2 H]]] := run_decides zero W1 W2 U1 U2.
have UV1 := unitary_realises W1 U1 R1; have UV2 := unitary_realises W2 U2 R2.
have D := H q s A A eps hq hs eps0; have D' := H q' s' A A eps' hq' hs' eps0'; rewrite /= in D D'.
have SI : A :&: A = A by rewrite setIid.
have [|r [Rr {}D]] := D _ _ stim e hd fuel pf m l g _ x1 x2 x3 (configured_decides hc) x4 x5 x6 x7 x8; first by rewrite SI.
have [|r' [Rr' {}D']] := D' _ _ stim' e' hd' fuel' pf' m' l' g' _ y1 y2 y3 (configured_decides hc') y4 y5 y6 y7 y8; first by rewrite SI.
exists r, r'; split=> //; rewrite SI in D D'.
by apply: (decides_inj UV1 UV2 (A := A)) => u [->|->].
Qed.
End C.

(** ** different ancillaries *)
Section Demo.
Variable C : numClosedFieldType.
Local Notation Lg := bool_finType.
Local Notation gate := (gate C bool_eqType).
Local Notation c1 := (qc2 id id [:: X C true]).
Local Notation c2 := (qc2 id id [:: CX C false true; X C true]).
Lemma runs_contradict (q : package C Lg bool_eqType) (s : schemes) (eps : C) (Stim Gen : Type) (stim : Stim -> vec C Lg) (e : env Stim Gen) fuel pf m :
  exact_package q -> good_schemes q c1 c2 s -> is_lookahead (s_alt s) = false -> describes q s false c1 c2 [set false] set0 eps stim e ->
  undisturbed fuel e m -> runSimulationChecker (exec (m_cfg m)) = false ->
  exists2 r, SeqFlow.run fuel pf e m = Returned r &
    (runAlternatingChecker (exec (m_cfg m)) = true -> r_eq (m_res r) = NotEquivalent) /\
    (runAlternatingChecker (exec (m_cfg m)) = false -> runConstructionChecker (exec (m_cfg m)) = true ->
       r_eq (m_res r) = Equivalent \/ r_eq (m_res r) = EquivalentUpToGlobalPhase).
Proof.
move=> [hc hw hn hnw] [[ha hcn hsm] [hcond nlc nls]] nla [ch [ya Ya] [yc Yc] Ys] [x1 [x2 [x3 [x4 [l [g [x5 [x6 [x7 x8]]]]]]]]] ns.
have he : equals_exact (q_equals q) c1 c2 by move: hcond; rewrite /alt_conditions nla => -[].
have [_ [y Y]] := @differ_wrong C (q_close q) (q_weight q) (q_nodeM q) (q_weightM q) hc (q_equals q) (q_view q) (q_size q) (s_alt s) NoInformation he ha nla.
have [[c [y' [Y' P']]] _] := @differ_wrong C (q_close q) (q_weight q) (q_nodeM q) (q_weightM q) hc (q_equals q) (q_view q) (q_size q) (s_con s) NoInformation he hcn nlc.
have EA := verdict_inj (etrans (esym Ya) Y).
have EC := verdict_inj2 (etrans (esym Yc) Y').
have [||r [Rr ER]] := verdict_agree fuel pf e m l g x1 x2 x3 x4 x5 x6 x7; try by rewrite ns.
exists r => //; rewrite ER /= /table; split=> [->|-> ->]; first by case: (e_alt e) EA.
by move: P'; rewrite -EC; case: (e_con e) => /= -[]; auto.
Qed.
End Demo.
