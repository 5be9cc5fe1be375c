(** C28-C30, C32-C35, C41, C50: what the decision-diagram checkers compute and what their verdicts mean, in exact arithmetic
    over any closed field of characteristic zero with conjugation ([numClosedFieldType], e.g. the algebraic numbers). *)
From Coq Require Import BinNums NArith.
From mathcomp Require Import all_ssreflect all_fingroup all_algebra.
From Verif Require Import Criterion Config SeqFlow SeqSpec ParFlow ParSpec Schemes DDCheck DDSpec DDProofs Qubits QubitsProofs QubitsProofs2 GateProofs
  DDSem DDSemProofs DDSemProofs2 DDSemProofs3 DDSemProofs4 DDSemProofs5 DDMain DDFlow DDFlowProofs DDDemo DDDemoProofs DDDemoProofs2 DDDemoProofs3.
Set Implicit Arguments.
Unset Strict Implicit.
Unset Printing Implicit Defensive.
Import GRing.Theory Num.Theory.
Local Open Scope ring_scope.

Section S.
Variables (C : numClosedFieldType) (Lg : finType) (Ph : eqType).
Local Notation mat := (mat C Lg).
Local Notation vec := (vec C Lg).
Local Notation gate := (gate C Ph).
Local Notation op := (op Ph gate).
Local Notation circuit := (circuit Ph Lg gate).

(** ** C28: the operators [V1], [V2] do not depend on the scheme, the size function, the ancillaries, ... *)
Theorem C28_alternating_computes : forall (c1 c2 : circuit) (zero : Ph), wf_circuit c1 -> wf_circuit c2 -> unitary_circuit c1 ->
  exists V1 V2 : mat, realises c1 V1 /\ realises c2 V2 /\
    forall (geqb : gate -> gate -> bool) (view : op -> opview) (size : mat -> N) (sch : appscheme) (A : {set Lg})
           (check : mat -> criterion) (old : criterion),
    scheme_for c1 c2 sch -> alt_conditions geqb c1 c2 sch ->
    exists y, alt_run geqb view zero size sch never c1 c2 A check old
                = RVerdict _ _ _ _ _ (check (V1 *m proj0 C A *m adj V2)) y /\ x_s _ _ _ _ _ y = V1 *m proj0 C A *m adj V2.
Proof.
move=> c1 c2 zero W1 W2 U1; have [V1 [V2 [R1 R2 H]]] := runs_compute zero W1 W2 U1; exists V1, V2; split=> //; split=> //.
move=> geqb view size sch A check old hs hc; have [HA _ _] := H geqb view sch old hs.
by have [y Y1 Y2] := HA size A check hc; exists y.
Qed.

(** ** C29 *)
Theorem C29_construction_computes : forall (c1 c2 : circuit) (zero : Ph), wf_circuit c1 -> wf_circuit c2 -> unitary_circuit c1 ->
  exists V1 V2 : mat, realises c1 V1 /\ realises c2 V2 /\
    forall (geqb : gate -> gate -> bool) (view : op -> opview) (sch : appscheme) (A1 A2 : {set Lg})
           (check : mat * mat -> criterion) (old : criterion),
    scheme_for c1 c2 sch -> is_lookahead sch = false ->
    exists y, con_run geqb view zero sch never c1 c2 A1 A2 check old
                = RVerdict _ _ _ _ _ (check (V1 *m proj0 C A1, V2 *m proj0 C A2)) y /\
              x_s _ _ _ _ _ y = (V1 *m proj0 C A1, V2 *m proj0 C A2).
Proof.
move=> c1 c2 zero W1 W2 U1; have [V1 [V2 [R1 R2 H]]] := runs_compute zero W1 W2 U1; exists V1, V2; split=> //; split=> //.
move=> geqb view sch A1 A2 check old hs nl; have [_ HC _] := H geqb view sch old hs.
by have [y Y1 Y2] := HC A1 A2 check nl; exists y.
Qed.

(** ** C30 *)
Theorem C30_simulation_computes : forall (c1 c2 : circuit) (zero : Ph), wf_circuit c1 -> wf_circuit c2 -> unitary_circuit c1 ->
  exists V1 V2 : mat, realises c1 V1 /\ realises c2 V2 /\
    forall (geqb : gate -> gate -> bool) (view : op -> opview) (sch : appscheme) (phi : vec)
           (check : vec * vec -> criterion) (old : criterion),
    scheme_for c1 c2 sch -> is_lookahead sch = false ->
    exists y, sim_run geqb view zero sch never c1 c2 phi check old
                = RVerdict _ _ _ _ _ (check (V1 *m phi, V2 *m phi)) y /\ x_s _ _ _ _ _ y = (V1 *m phi, V2 *m phi).
Proof.
move=> c1 c2 zero W1 W2 U1; have [V1 [V2 [R1 R2 H]]] := runs_compute zero W1 W2 U1; exists V1, V2; split=> //; split=> //.
move=> geqb view sch phi check old hs nl; have [_ _ HS] := H geqb view sch old hs.
by have [y Y1 Y2] := HS phi check nl; exists y.
Qed.
(** a refuting simulation shows that the outputs on the (unit) stimulus differ, even up to a phase;
    no assumption on how decision diagrams share nodes *)
Theorem C30_refutation_is_real : forall (sameNode sameWeight : vec -> vec -> bool) (eps : C) (V1 V2 : mat) (phi : vec),
  0 < eps -> unitary V1 -> unitary V2 -> inner phi phi = 1 ->
  sim_check sameNode sameWeight eps (V1 *m phi, V2 *m phi) = NotEquivalent -> forall w : C, V1 *m phi <> w *: (V2 *m phi).
Proof.
move=> sn sw eps V1 V2 phi e0 U1 U2 un H w E.
by apply: (@sim_never_refutes C Lg sn sw eps e0 (V1 *m phi) (V2 *m phi) _ _ w) => //; rewrite inner_unitary.
Qed.

(** ** C32 *)
(** the algebraic core: with ancillaries that one of the circuits leaves alone *)
Theorem C32_criterion : forall (c1 c2 : circuit) (V1 V2 : mat) (A : {set Lg}) (w : C),
  wf_circuit c1 -> wf_circuit c2 -> unitary_circuit c1 -> unitary_circuit c2 -> realises c1 V1 -> realises c2 V2 ->
  ancillaries_handled c1 c2 A ->
  (V1 *m proj0 C A *m adj V2 = w *: proj0 C A <-> V1 *m proj0 C A = w *: (V2 *m proj0 C A)).
Proof.
move=> c1 c2 V1 V2 A w W1 W2 U1 U2 R1 R2 hA; have UV1 := unitary_realises W1 U1 R1; have UV2 := unitary_realises W2 U2 R2.
split=> E; last exact: (handled_close W1 W2 UV1 UV2 R1 R2 hA E).
have w0 : w != 0.
  apply/eqP => w0; move: E; rewrite w0 scale0r => /(congr1 (fun M => adj V1 *m M *m V2)).
  rewrite mulmx0 mul0mx !mulmxA (unitary_left UV1) mul1mx -mulmxA (unitary_left UV2) mulmx1 => /(congr1 (fun M => entry M (basis0 Lg) (basis0 Lg))).
  by rewrite entry_proj0 eqxx zeros0 entry_0 => /eqP; rewrite oner_eq0.
have [|_ H _] := close_agree UV1 UV2 (A := A).
  rewrite E; split.
  - by move=> x y N; rewrite entry_scale entry_proj0 (negbTE N) mulr0.
  - by rewrite entry_scale entry_proj0 eqxx zeros0 mulr1.
  - by move=> x; rewrite !entry_scale !entry_proj0 !eqxx zeros0 /=; case: [forall _ in _, _]; rewrite ?mulr0 ?mulr1; [right|left].
by move: H; rewrite E entry_scale entry_proj0 eqxx zeros0 mulr1.
Qed.

(** verdicts of the alternating checker *)
Theorem C32_alternating_exact : forall (isClose : mat -> bool) (weight : mat -> C), closeness_test isClose -> weight_of weight ->
  forall (c1 c2 : circuit) (V1 V2 : mat) (A : {set Lg}),
  wf_circuit c1 -> wf_circuit c2 -> unitary_circuit c1 -> unitary_circuit c2 -> realises c1 V1 -> realises c2 V2 ->
  ancillaries_handled c1 c2 A ->
  let verdict := alt_check isClose weight (V1 *m proj0 C A *m adj V2) in
  [/\ verdict = Equivalent <-> V1 *m proj0 C A = V2 *m proj0 C A,
      verdict = EquivalentUpToGlobalPhase <-> exists w, [/\ `|w| = 1, w != 1 & V1 *m proj0 C A = w *: (V2 *m proj0 C A)] &
      verdict = NotEquivalent <-> forall w, V1 *m proj0 C A <> w *: (V2 *m proj0 C A)].
Proof.
move=> isClose weight hc hw c1 c2 V1 V2 A W1 W2 U1 U2 R1 R2 hA v.
have UV1 := unitary_realises W1 U1 R1; have UV2 := unitary_realises W2 U2 R2.
by apply: alt_exact => // w Hw; exact: (handled_close W1 W2 UV1 UV2 R1 R2 hA Hw).
Qed.
(** without any condition on the ancillaries, positive verdicts are still true *)
Theorem C32_alternating_sound : forall (isClose : mat -> bool) (weight : mat -> C), closeness_test isClose -> weight_of weight ->
  forall (V1 V2 : mat) (A : {set Lg}), unitary V1 -> unitary V2 ->
  let verdict := alt_check isClose weight (V1 *m proj0 C A *m adj V2) in
  (verdict = Equivalent -> V1 *m proj0 C A = V2 *m proj0 C A) /\
  (verdict = EquivalentUpToGlobalPhase -> exists w, [/\ `|w| = 1, w != 1 & V1 *m proj0 C A = w *: (V2 *m proj0 C A)]).
Proof. by move=> isClose weight hc hw V1 V2 A U1 U2 v; exact: alt_sound. Qed.
(** verdicts of the construction checker, when both circuits have the same ancillaries *)
Theorem C32_construction_exact : forall (isClose : mat -> bool) (sameNode sameWeight : mat -> mat -> bool),
  closeness_test isClose -> @same_node_test C [lmodType C of mat] sameNode -> @same_weight_test C [lmodType C of mat] sameNode sameWeight ->
  forall (V1 V2 : mat) (A : {set Lg}), unitary V1 -> unitary V2 ->
  let verdict := con_check isClose sameNode sameWeight (V1 *m proj0 C A, V2 *m proj0 C A) in
  [/\ verdict = Equivalent <-> V1 *m proj0 C A = V2 *m proj0 C A,
      verdict = EquivalentUpToGlobalPhase <-> exists w, [/\ `|w| = 1, w != 1 & V1 *m proj0 C A = w *: (V2 *m proj0 C A)] &
      verdict = NotEquivalent <-> forall w, V1 *m proj0 C A <> w *: (V2 *m proj0 C A)].
Proof. by move=> isClose sn sw hc hn hw V1 V2 A U1 U2 v; exact: con_exact. Qed.
(** hence the two checkers agree *)
Theorem C32_checkers_agree : forall (q : package C Lg Ph) (zero : Ph) (c1 c2 : circuit) (A : {set Lg}) (scha schc : appscheme)
  (old : criterion), exact_package q -> wf_circuit c1 -> wf_circuit c2 -> unitary_circuit c1 -> unitary_circuit c2 ->
  scheme_for c1 c2 scha -> scheme_for c1 c2 schc -> alt_conditions (q_equals q) c1 c2 scha -> is_lookahead schc = false ->
  ancillaries_handled c1 c2 A ->
  exists v y1 y2,
    alt_run (q_equals q) (q_view q) zero (q_size q) scha never c1 c2 A (alt_check (q_close q) (q_weight q)) old = RVerdict _ _ _ _ _ v y1 /\
    con_run (q_equals q) (q_view q) zero schc never c1 c2 A A (con_check (q_close q) (q_nodeM q) (q_weightM q)) old = RVerdict _ _ _ _ _ v y2.
Proof.
move=> q zero c1 c2 A scha schc old hq W1 W2 U1 U2 ha hc ca nl hA; have [h1 h2 h3 h4] := hq.
have [V1 [V2 [R1 R2 H]]] := runs_compute zero W1 W2 U1.
have UV1 := unitary_realises W1 U1 R1; have UV2 := unitary_realises W2 U2 R2.
have [HA _ _] := H (q_equals q) (q_view q) scha old ha; have [_ HC _] := H (q_equals q) (q_view q) schc old hc.
have [y1 Y1 _] := HA (q_size q) A (alt_check (q_close q) (q_weight q)) ca.
have [y2 Y2 _] := HC A A (con_check (q_close q) (q_nodeM q) (q_weightM q)) nl.
exists (alt_check (q_close q) (q_weight q) (V1 *m proj0 C A *m adj V2)), y1, y2; split=> //; rewrite Y2; congr RVerdict.
have [A1 A2 A3] := C32_alternating_exact h1 h2 W1 W2 U1 U2 R1 R2 hA; have [C1 C2 C3] := C32_construction_exact h1 h3 h4 A UV1 UV2.
case: (alt_verdict_vals (q_close q) (q_weight q) V1 V2 A) => [E|[E|E]]; rewrite E.
- by apply/C1/A1.
- by apply/C2/A2.
- by apply/C3/A3.
Qed.
(** canHandle() together with plain outputs of the ancillaries is enough *)
Theorem C32_can_handle_suffices : forall (c1 c2 : circuit) (A1 A2 : {set Lg}), wf_circuit c1 -> wf_circuit c2 ->
  plain_outputs c1 (A1 :&: A2) -> plain_outputs c2 (A1 :&: A2) -> can_handle c1 c2 A1 A2 -> ancillaries_handled c1 c2 (A1 :&: A2).
Proof. exact: can_handle_handled. Qed.

(** ** C33 *)
(** skipping a pair of identical gates on a multiple of the identity changes nothing if the tracked permutations agree on them *)
Theorem C33_skip_sound : forall (geqb : gate -> gate -> bool) (o1 o2 : op) (p1 p2 : Ph -> Lg) (F : mat),
  equals_exact_ops Lg geqb o1 o2 -> swap_free o1 = true -> swap_free o2 = true -> unitary_op Lg o1 ->
  op_eqb Ph gate eq_op geqb o1 o2 = true -> {in op_qubits o1, p1 =1 p2} -> {in op_qubits o1 &, injective p1} ->
  is_scalar_mx F ->
  (getDD Ph Lg gate mat eq_op (@xpkg C Lg Ph) false o1 p1).1 *m F *m (getDD Ph Lg gate mat eq_op (@xpkg C Lg Ph) true o2 p2).1 = F.
Proof. by move=> geqb o1 o2 p1 p2 F H1 H2 H3 U H4 H5 H6 H7; apply: (skip_ok (geqb := geqb)). Qed.
(** circuits without SWAPs and with equal layouts always track the same permutations *)
Theorem C33_elided_same_placement : forall (geqb : gate -> gate -> bool) (c1 c2 : circuit),
  elided c1 -> elided c2 -> same_layout c1 c2 -> same_placement geqb c1 c2.
Proof. by move=> geqb c1 c2; exact: elided_placement. Qed.

(** ** C34 *)
(** a task manager (TaskManager.hpp:88-109) with tracked permutations: apply the operations in any portions [ns], then the rest, then
    restore the output permutation. The result is the circuit's operator, in which SWAPs are real SWAPs, applied from the left; for the
    task manager that works with inverse decision diagrams from the right, the inverse operator *)
Theorem C34_tracking_is_swapping : forall (c : circuit) (zero : Ph), wf_circuit c ->
  exists V : mat, realises c V /\
    (forall (ns : seq N) (phi : vec), exists t s p,
       tm_portions (fun m v => m *m v) false ns (tm_reset _ _ _ c) phi = (t, s) /\ t_rest _ _ _ t = [::] /\
       changePermutation Ph Lg gate mat eq_op eq_op (@xpkg C Lg Ph) vec (fun m v => m *m v) zero (c_keys _ _ _ c) (t_perm _ _ _ t) (c_output _ _ _ c) s
         = Some (p, V *m phi)) /\
    (forall (ns : seq N) (F : mat), exists t s p,
       tm_portions (fun m f => f *m m) true ns (tm_reset _ _ _ c) F = (t, s) /\ t_rest _ _ _ t = [::] /\
       changePermutation Ph Lg gate mat eq_op eq_op (@xpkg C Lg Ph) mat (fun m f => f *m m) zero (c_keys _ _ _ c) (t_perm _ _ _ t) (c_output _ _ _ c) s
         = Some (p, F *m adj V)).
Proof. by move=> c zero W; exact: portions_realise. Qed.

(** ** C35 *)
Theorem C35_equivalent_means_close : forall (sameNode sameWeight : vec -> vec -> bool) (eps : C) (e f : vec),
  @same_node_test C [lmodType C of vec] sameNode -> @same_weight_test C [lmodType C of vec] sameNode sameWeight ->
  0 < eps -> inner e e = 1 -> inner f f = 1 ->
  sim_check sameNode sameWeight eps (e, f) = Equivalent -> inner (e - f) (e - f) < eps *+ 2.
Proof. by move=> sn sw eps e f hn hw e0 ue uf; exact: sim_close. Qed.
Theorem C35_phase_means_fidelity : forall (sameNode sameWeight : vec -> vec -> bool) (eps : C) (e f : vec),
  @same_node_test C [lmodType C of vec] sameNode -> @same_weight_test C [lmodType C of vec] sameNode sameWeight ->
  0 < eps -> inner e e = 1 -> inner f f = 1 ->
  sim_check sameNode sameWeight eps (e, f) = EquivalentUpToPhase -> `| `|inner e f| ^+ 2 - 1| < eps.
Proof. by move=> sn sw eps e f hn hw e0 ue uf; exact: sim_phase. Qed.
(** for every positive threshold and whatever the node comparison does *)
Theorem C35_equal_up_to_phase_not_refuted : forall (sameNode sameWeight : vec -> vec -> bool) (eps w : C) (e f : vec),
  0 < eps -> inner e e = 1 -> inner f f = 1 -> e = w *: f -> sim_check sameNode sameWeight eps (e, f) <> NotEquivalent.
Proof. by move=> sn sw eps w e f e0 ue uf; exact: sim_never_refutes. Qed.

(** ** C41 *)
Theorem C41_can_handle_exact : forall (c1 c2 : circuit) (anc1 anc2 : {set Lg}), wf_circuit c1 -> wf_circuit c2 ->
  can_handle c1 c2 anc1 anc2 = false <->
  exists v, [/\ v \in anc1, v \in anc2 & (acted_upon c1 v /\ acted_upon c2 v) \/ (absent c1 v /\ absent c2 v)].
Proof. exact: can_handle_exact. Qed.

(** ** C50 *)
(** [e] is any environment of the manager's flows that has the verdicts of the checkers on these circuits, with any timeout,
    generator, configuration and (for the parallel flow) schedule; A1 and A2 are the ancillaries of the circuits, stimuli and verdicts are
    about the common ones; the verdict of the ZX checker is assumed to be true *)
Theorem C50_definitive_verdicts_true : forall (zero : Ph) (c1 c2 : circuit),
  wf_circuit c1 -> wf_circuit c2 -> unitary_circuit c1 -> unitary_circuit c2 ->
  exists V1 V2 : mat, [/\ realises c1 V1, realises c2 V2 &
    forall (q : package C Lg Ph) (s : schemes) (A1 A2 : {set Lg}) (eps : C), exact_package q -> good_schemes q c1 c2 s -> 0 < eps ->
    let A := A1 :&: A2 in
    forall (Stim Gen : Type) (stim : Stim -> vec) (e : env Stim Gen), describes q s zero c1 c2 A1 A2 eps stim e ->
    (e_transformable e = true -> zcrit (e_ancilla e) (e_zx e) = Equivalent \/ zcrit (e_ancilla e) (e_zx e) = EquivalentUpToGlobalPhase ->
       true_verdict A V1 V2 (zcrit (e_ancilla e) (e_zx e))) ->
    (forall fuel pf m m', ancillaries_fit (m_cfg m) c1 c2 A1 A2 -> stimuli_fit A stim e (m_gen m) ->
       choose_flow e (m_cfg m) = FSequential -> SeqFlow.run fuel pf e m = Returned m' ->
       definitive (r_eq (m_res m')) -> true_verdict A V1 V2 (r_eq (m_res m'))) /\
    (forall c g pp x, ancillaries_fit c c1 c2 A1 A2 -> stimuli_fit A stim e g -> sane_sims c -> enough_threads e c -> par_returned e c g pp x ->
       definitive (r_eq (p_res x)) -> true_verdict A V1 V2 (r_eq (p_res x)))].
Proof. by move=> zero c1 c2 W1 W2 U1 U2; exact: flows_true. Qed.
(** ... and every pair of circuits has such environments *)
Theorem C50_environment_exists : forall (q : package C Lg Ph) (s : schemes) (zero : Ph) (c1 c2 : circuit) (A1 A2 : {set Lg}) (eps : C)
  (Stim Gen : Type) (stim : Stim -> vec) (e : env Stim Gen),
  wf_circuit c1 -> wf_circuit c2 -> unitary_circuit c1 -> good_schemes q c1 c2 s ->
  exists ch a c sm, describes q s zero c1 c2 A1 A2 eps stim (with_verdicts e ch a c sm).
Proof. by move=> q s zero c1 c2 A1 A2 eps Stim Gen stim e W1 W2 U1 hs; exact: describes_ex. Qed.
(** the conditions on the ancillaries are met if they are not permuted by the outputs and, for the construction checker, the same *)
Theorem C50_ancillaries_fit : forall (cfg : config) (c1 c2 : circuit) (A1 A2 : {set Lg}), wf_circuit c1 -> wf_circuit c2 ->
  plain_outputs c1 (A1 :&: A2) -> plain_outputs c2 (A1 :&: A2) -> (runConstructionChecker (exec cfg) = true -> A1 = A2) ->
  ancillaries_fit cfg c1 c2 A1 A2.
Proof. by move=> cfg c1 c2 A1 A2 W1 W2 P1 P2 hc; split=> // _; exact: can_handle_handled. Qed.
End S.
Print Assumptions C28_alternating_computes.
Print Assumptions C29_construction_computes.
Print Assumptions C30_simulation_computes.
Print Assumptions C30_refutation_is_real.
Print Assumptions C32_criterion.
Print Assumptions C32_alternating_exact.
Print Assumptions C32_alternating_sound.
Print Assumptions C32_construction_exact.
Print Assumptions C32_checkers_agree.
Print Assumptions C32_can_handle_suffices.
Print Assumptions C33_skip_sound.
Print Assumptions C33_elided_same_placement.
Print Assumptions C34_tracking_is_swapping.
Print Assumptions C35_equivalent_means_close.
Print Assumptions C35_phase_means_fidelity.
Print Assumptions C35_equal_up_to_phase_not_refuted.
Print Assumptions C41_can_handle_exact.
Print Assumptions C50_definitive_verdicts_true.
Print Assumptions C50_environment_exists.
Print Assumptions C50_ancillaries_fit.

(** ** counterexamples and examples on two qubits *)
Section Demo.
Variable C : numClosedFieldType.
Local Notation mat := (mat C bool_finType).
Local Notation gate := (gate C bool_eqType).
Local Notation realises := (@realises C bool_finType bool_eqType).
Local Notation pkg2 := (demo_package C bool_finType bool_eqType).

(** X on physical qubit 0 in both circuits, but the second circuit starts and ends with exchanged qubits: the operators differ,
    the checker skips the gates and says 'equivalent' (every scheme but lookahead, every exact comparison) *)
Theorem C33_unequal_placement_refuted :
  ~ (forall (q : package C bool_finType bool_eqType) (c1 c2 : circuit bool_eqType bool_finType gate) (sch : appscheme),
     exact_package q -> wf_circuit c1 -> wf_circuit c2 -> unitary_circuit c1 -> unitary_circuit c2 ->
     equals_exact (q_equals q) c1 c2 -> elided c1 -> elided c2 -> scheme_for c1 c2 sch ->
     forall V1 V2 y, realises c1 V1 -> realises c2 V2 ->
       alt_run (q_equals q) (q_view q) false (q_size q) sch never c1 c2 set0 (alt_check (q_close q) (q_weight q)) NoInformation
         = RVerdict _ _ _ _ _ Equivalent y -> V1 = V2).
Proof.
move=> H; have [hc hw _ _] := demo_exact C bool_finType bool_eqType.
have [[y Y] N] := @skip_wrong C _ _ hc hw (q_equals pkg2) (q_view pkg2) (q_size pkg2) SOneToOne NoInformation (demo_equals_refl _) erefl.
set c1 := qc2 id id _ in Y N; set c2 := qc2 negb negb _ in Y N.
have W1 : wf_circuit (Lg := bool_finType) c1 by apply: qc2_wf.
have W2 : wf_circuit (Lg := bool_finType) c2 by apply: qc2_wf; exact: negb_inj.
have [V1 [_ [R1 _]]] := computes_ex false W1; have [V2 [_ [R2 _]]] := computes_ex false W2.
have un L O : unitary_circuit (Lg := bool_finType) (qc2 L O [:: X C false]).
  by apply: (@qc2_unitary C L O [:: xgate C false]) => g [<-|[]]; exact: xgate_unitary.
have E := H pkg2 c1 c2 SOneToOne (demo_exact _ _ _) W1 W2 (un _ _) (un _ _) (@demo_equals_exact _ _ _ _ _)
  (@qc2_elided C id id [:: xgate C false]) (@qc2_elided C negb negb [:: xgate C false]) I V1 V2 y R1 R2 Y.
by apply: (N V1 V2 R1 R2 1); rewrite /agree_up_to E scale1r.
Qed.

(** the lookahead scheme computes a cached compound operation twice: with a SWAP inside, the tracked permutation is wrong and
    different circuits are called 'equivalent' (CX against a compound operation SWAP; CX) *)
Theorem C28_lookahead_hidden_swap_refuted :
  ~ (forall (q : package C bool_finType bool_eqType) (c1 c2 : circuit bool_eqType bool_finType gate),
     exact_package q -> wf_circuit c1 -> wf_circuit c2 -> unitary_circuit c1 -> unitary_circuit c2 ->
     forall V1 V2 y, realises c1 V1 -> realises c2 V2 ->
       alt_run (q_equals q) (q_view q) false (q_size q) SLookahead never c1 c2 set0 (alt_check (q_close q) (q_weight q)) NoInformation
         = RVerdict _ _ _ _ _ Equivalent y -> V1 = V2).
Proof.
move=> H; have [hc hw _ _] := demo_exact C bool_finType bool_eqType.
have [[y Y] N] := @hidden_wrong C _ _ hc hw (q_equals pkg2) (q_view pkg2) (q_size pkg2) NoInformation (N.le_refl _).
set c1 := qc2 id id _ in Y N; set c2 := qc2 id id (Comp _ :: _) in Y N.
have W1 : wf_circuit (Lg := bool_finType) c1 by apply: qc2_wf.
have W2 : wf_circuit (Lg := bool_finType) c2 by apply: qc2_wf.
have [V1 [_ [R1 _]]] := computes_ex false W1; have [V2 [_ [R2 _]]] := computes_ex false W2.
have U1 : unitary_circuit (Lg := bool_finType) c1 by move=> o [<-|[]]; exact: cxgate_unitary.
have U2 : unitary_circuit (Lg := bool_finType) c2 by move=> o [<-|[]] /=; split=> //; split=> //; exact: cxgate_unitary.
have E := H pkg2 c1 c2 (demo_exact _ _ _) W1 W2 U1 U2 V1 V2 y R1 R2 Y.
by apply: (N V1 V2 R1 R2 1); rewrite /agree_up_to E scale1r.
Qed.

(** the agreement of the checkers needs equal sets of ancillaries: here one circuit declares qubit 0 an ancillary, the other
    does not; the construction checker says 'equivalent' (maybe up to a global phase), the alternating checker 'not equivalent' *)
Theorem C32_different_ancillaries_refuted :
  exists (c1 c2 : circuit bool_eqType bool_finType gate) (A1 A2 : {set bool_finType}),
    [/\ wf_circuit c1, wf_circuit c2, can_handle c1 c2 A1 A2 &
     forall (q : package C bool_finType bool_eqType) (sch : appscheme) (old : criterion),
       exact_package q -> equals_exact (q_equals q) c1 c2 -> scheme_for c1 c2 sch -> is_lookahead sch = false ->
       (exists c y, con_run (q_equals q) (q_view q) false sch never c1 c2 A1 A2 (con_check (q_close q) (q_nodeM q) (q_weightM q)) old
                      = RVerdict _ _ _ _ _ c y /\ (c = Equivalent \/ c = EquivalentUpToGlobalPhase)) /\
       (exists y, alt_run (q_equals q) (q_view q) false (q_size q) sch never c1 c2 (A1 :&: A2) (alt_check (q_close q) (q_weight q)) old
                      = RVerdict _ _ _ _ _ NotEquivalent y)].
Proof.
exists (qc2 id id [:: X C true]), (qc2 id id [:: CX C false true; X C true]), [set false], set0.
split; [exact: qc2_wf|exact: qc2_wf|by apply/forallP => v; rewrite inE in_set0 andbF|].
by move=> q sch old [hc hw hn hnw] he hs nl; apply: differ_wrong.
Qed.

(** canHandle() alone is not enough: both qubits are ancillaries, one circuit flips qubit 1, the other flips qubit 0 and
    exchanges the outputs. On the all-zero state both do the same, the alternating checker says 'not equivalent'. *)
Theorem C32_can_handle_alone_refuted :
  exists (c1 c2 : circuit bool_eqType bool_finType gate) (A : {set bool_finType}),
    [/\ wf_circuit c1, wf_circuit c2, can_handle c1 c2 A A &
     forall (q : package C bool_finType bool_eqType) (sch : appscheme) (old : criterion),
       exact_package q -> equals_exact (q_equals q) c1 c2 -> scheme_for c1 c2 sch -> is_lookahead sch = false ->
       (exists y, alt_run (q_equals q) (q_view q) false (q_size q) sch never c1 c2 A (alt_check (q_close q) (q_weight q)) old
                    = RVerdict _ _ _ _ _ NotEquivalent y) /\
       (forall V1 V2, realises c1 V1 -> realises c2 V2 -> V1 *m proj0 C A = V2 *m proj0 C A)].
Proof.
exists (qc2 id id [:: X C true]), (qc2 id negb [:: X C false]), setT.
split; [exact: qc2_wf|by apply: qc2_wf => //; exact: negb_inj| |].
- by apply/forallP => v; apply/implyP => _; case: v.
- move=> q sch old [hc hw hn hnw] he hs nl.
  have [_ Y N] := @outputs_wrong C (q_close q) (q_weight q) hc (q_equals q) (q_view q) (q_size q) sch old he hs nl.
  by split=> // V1 V2 R1 R2; have := N V1 V2 R1 R2; rewrite /agree_up_to scale1r.
Qed.

(** the hypotheses of C28-C34 and C50 are met by, e.g., X(0); CX(0,1) against X(0); X(1); CX(0,1); X(1) with an exact package *)
Example C50_hypotheses_met :
  let c1 := qc2 id id (map (OGate bool gate) (bell C)) in
  let c2 := qc2 id id (map (OGate bool gate) [:: xgate C false; xgate C true; cxgate C false true; xgate C true]) in
  let s := Schemes (SGateCost nil true) (SProportional true) SOneToOne in
  [/\ wf_circuit (Lg := bool_finType) c1, wf_circuit (Lg := bool_finType) c2, unitary_circuit (Lg := bool_finType) c1,
      unitary_circuit (Lg := bool_finType) c2 & exact_package pkg2] /\
  [/\ good_schemes pkg2 c1 c2 s, ancillaries_handled c1 c2 set0, 0 < (1 : C) &
      fits set0 (\col_i ((i == enum_rank (basis0 bool_finType))%:R : C) : vec C bool_finType)].
Proof.
move=> c1 c2 s; split; split; [exact: qc2_wf|exact: qc2_wf|exact/qc2_unitary/bell_unitary| |exact: demo_exact| | |exact: ltr01|].
- apply: qc2_unitary => g [<-|[<-|[<-|[<-|[]]]]]; [exact: xgate_unitary|exact: xgate_unitary|exact: cxgate_unitary|exact: xgate_unitary].
- by split; split=> //; split; [exact: demo_equals_exact|exact: qc2_placement].
- by move=> v; rewrite inE.
- split; last by rewrite proj0_0 mul1mx.
  rewrite /inner mxE (bigD1 (enum_rank (basis0 bool_finType))) //= !mxE eqxx conjC_nat mulr1 big1 ?addr0 // => i /negbTE N.
  by rewrite !mxE N mulr0.
Qed.
End Demo.
Print Assumptions C33_unequal_placement_refuted.
Print Assumptions C28_lookahead_hidden_swap_refuted.
Print Assumptions C32_different_ancillaries_refuted.
Print Assumptions C32_can_handle_alone_refuted.
