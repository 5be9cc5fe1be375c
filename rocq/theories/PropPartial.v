(** C59: what the verdicts of the decision-diagram checkers mean when partial equivalence is asked for
    (configuration.functionality.checkPartialEquivalence). Exact arithmetic, as in PropDDSem.v. *)
From Coq Require Import BinNums.
From mathcomp Require Import all_ssreflect all_fingroup all_algebra.
From Verif Require Import Criterion Schemes DDCheck DDSpec DDProofs Qubits QubitsProofs QubitsProofs2 GateProofs
  DDSem DDSemProofs DDSemProofs2 DDSemProofs3 DDSemProofs4 DDSemProofs5 DDMain DDFlow DDDemo DDDemoProofs DDDemoProofs2 DDDemoProofs3
  PartialEq PartialEqProofs PartialDemo PartialDemoProofs.
Set Implicit Arguments.
Unset Strict Implicit.
Unset Printing Implicit Defensive.
Import GRing.Theory Num.Theory.
Local Open Scope ring_scope.

Section S.
Variables (C : numClosedFieldType) (Lg : finType) (Ph : eqType).
Local Notation mat := (mat C Lg).
Local Notation vec := (vec C Lg).
Local Notation gate := (gate C Ph).
Local Notation op := (op Ph gate).
Local Notation circuit := (circuit Ph Lg gate).

(** the alternating checker: any verdict but 'not equivalent' is right, whatever the circuits do to their ancillaries *)
Theorem C59_alternating_sound : forall (G : {set Lg}) (isClose : mat -> bool) (weight : mat -> C), partial_test G isClose ->
  forall (V1 V2 : mat) (A : {set Lg}), unitary V1 -> unitary V2 ->
  alt_check isClose weight (V1 *m proj0 C A *m adj V2) <> NotEquivalent -> partially_equivalent A G V1 V2.
Proof.
move=> G isClose weight hp V1 V2 A U1 U2; rewrite /alt_check; case E : (isClose _) => // _.
by apply: blocks_sound => //; apply/hp.
Qed.
(** 'not equivalent' is right as well if one of the circuits leaves all ancillaries alone (in particular without ancillaries) *)
Theorem C59_alternating_exact : forall (G : {set Lg}) (isClose : mat -> bool) (weight : mat -> C), partial_test G isClose ->
  forall (c1 c2 : circuit) (V1 V2 : mat) (A : {set Lg}),
  wf_circuit c1 -> wf_circuit c2 -> unitary_circuit c1 -> unitary_circuit c2 -> realises c1 V1 -> realises c2 V2 ->
  ((forall q, q \in A -> leaves_alone c1 q) \/ (forall q, q \in A -> leaves_alone c2 q)) ->
  (alt_check isClose weight (V1 *m proj0 C A *m adj V2) = NotEquivalent <-> ~ partially_equivalent A G V1 V2).
Proof.
move=> G isClose weight hp c1 c2 V1 V2 A W1 W2 U1 U2 R1 R2 HA.
have UV1 := unitary_realises W1 U1 R1; have UV2 := unitary_realises W2 U2 R2.
have HB : partially_equivalent A G V1 V2 -> blocks G (V1 *m proj0 C A *m adj V2).
  by case: HA => H; [apply: alone_complete1|apply: alone_complete] => //; [exact: (alone_proj0 W1 R1)|exact: (alone_proj0 W2 R2)].
rewrite /alt_check; case E : (isClose _).
- split; [by case: ifP|case; apply: blocks_sound => //; exact/hp].
- by split=> // _ /HB /hp; rewrite E.
Qed.
(** the whole run of the alternating checker *)
Theorem C59_alternating_run : forall (G : {set Lg}) (isClose : mat -> bool) (weight : mat -> C), partial_test G isClose ->
  forall (c1 c2 : circuit) (zero : Ph), wf_circuit c1 -> wf_circuit c2 -> unitary_circuit c1 -> unitary_circuit c2 ->
  exists V1 V2 : mat, realises c1 V1 /\ realises c2 V2 /\
    forall (geqb : gate -> gate -> bool) (view : op -> opview) (size : mat -> N) (sch : appscheme) (A : {set Lg}) (old : criterion),
    scheme_for c1 c2 sch -> alt_conditions geqb c1 c2 sch ->
    exists v y, alt_run geqb view zero size sch never c1 c2 A (alt_check isClose weight) old = RVerdict _ _ _ _ _ v y /\
      (v <> NotEquivalent -> partially_equivalent A G V1 V2) /\
      ((forall q, q \in A -> leaves_alone c1 q) \/ (forall q, q \in A -> leaves_alone c2 q) ->
       (v = NotEquivalent <-> ~ partially_equivalent A G V1 V2)).
Proof.
move=> G isClose weight hp c1 c2 zero W1 W2 U1 U2; have [V1 [V2 [R1 R2 H]]] := runs_compute zero W1 W2 U1.
exists V1, V2; split=> //; split=> // geqb view size sch A old hs hc; have [HA _ _] := H geqb view sch old hs.
have [y Y _] := HA size A (alt_check isClose weight) hc; eexists; exists y; split; first exact: Y.
split; last by move=> HL; exact: (C59_alternating_exact weight hp W1 W2 U1 U2 R1 R2 HL).
apply: C59_alternating_sound => //; [exact: (unitary_realises W1 U1 R1)|exact: (unitary_realises W2 U2 R2)].
Qed.

(** the construction checker: 'equivalent' iff the outcome probabilities agree for every computational basis state as input,
    'not equivalent' iff not; it gives no other verdict *)
Theorem C59_construction_exact : forall (q : package C Lg Ph), exact_package q ->
  forall (c1 c2 : circuit) (zero : Ph), wf_circuit c1 -> wf_circuit c2 -> unitary_circuit c1 -> unitary_circuit c2 ->
  exists V1 V2 : mat, realises c1 V1 /\ realises c2 V2 /\
    forall (geqb : gate -> gate -> bool) (view : op -> opview) (sch : appscheme) (A G : {set Lg}) (old : criterion),
    scheme_for c1 c2 sch -> is_lookahead sch = false ->
    exists v y, con_run_partial geqb view zero sch never c1 c2 A A G G (con_check (q_close q) (q_nodeM q) (q_weightM q)) old
                  = RVerdict _ _ _ _ _ v y /\
      (v = Equivalent <-> same_on_basis A G V1 V2) /\ (v = NotEquivalent <-> ~ same_on_basis A G V1 V2) /\
      (v = Equivalent \/ v = NotEquivalent).
Proof.
move=> q [hc _ hn hw] c1 c2 zero W1 W2 U1 U2.
have [V1 [ms1 [R1 K1]]] := computes_ex zero W1; have [V2 [ms2 [R2 K2]]] := computes_ex zero W2.
exists V1, V2; split=> //; split=> // geqb view sch A G old hs nl.
have [y Y] := con_partial_never geqb view K1 K2 A A G G (con_check (q_close q) (q_nodeM q) (q_weightM q)) old hs nl.
have UV1 := unitary_realises W1 U1 R1; have UV2 := unitary_realises W2 U2 R2.
eexists; exists y; split; first exact: Y.
have [E N] := con_partial_verdict A G UV1 UV2 hc hn hw.
split=> //; split=> //; rewrite con_partial_exact //; by case: ifP; [left|right].
Qed.
(** hence partially equivalent circuits are never rejected by it *)
Theorem C59_construction_never_rejects : forall (q : package C Lg Ph), exact_package q ->
  forall (V1 V2 : mat) (A G : {set Lg}), unitary V1 -> unitary V2 -> partially_equivalent A G V1 V2 ->
  con_check (q_close q) (q_nodeM q) (q_weightM q) (reduce_mx G (V1 *m proj0 C A), reduce_mx G (V2 *m proj0 C A)) = Equivalent.
Proof.
move=> q [hc _ hn hw] V1 V2 A G U1 U2 HP; have [E _] := con_partial_verdict A G U1 U2 hc hn hw.
by apply/E; exact: pe_on_basis.
Qed.

(** the simulation checker: a refutation shows that the outcome probabilities on the stimulus differ; 'equivalent' says that
    the vectors of square roots of the probabilities are close *)
Theorem C59_simulation : forall (q : package C Lg Ph) (eps : C), 0 < eps ->
  @same_node_test C [lmodType C of vec] (q_nodeV q) -> @same_weight_test C [lmodType C of vec] (q_nodeV q) (q_weightV q) ->
  forall (c1 c2 : circuit) (zero : Ph), wf_circuit c1 -> wf_circuit c2 -> unitary_circuit c1 -> unitary_circuit c2 ->
  exists V1 V2 : mat, realises c1 V1 /\ realises c2 V2 /\
    forall (geqb : gate -> gate -> bool) (view : op -> opview) (sch : appscheme) (phi : vec) (G : {set Lg}) (old : criterion),
    scheme_for c1 c2 sch -> is_lookahead sch = false -> inner phi phi = 1 ->
    exists v y, sim_run_partial geqb view zero sch never c1 c2 phi G G (sim_check (q_nodeV q) (q_weightV q) eps) old
                  = RVerdict _ _ _ _ _ v y /\
      (v = NotEquivalent -> exists m, prob G (V1 *m phi) m <> prob G (V2 *m phi) m) /\
      (v = Equivalent -> \sum_(m : basis Lg | zeros G m) (sqrtC (prob G (V1 *m phi) m) - sqrtC (prob G (V2 *m phi) m)) ^+ 2 < eps *+ 2).
Proof.
move=> q eps e0 hn hw c1 c2 zero W1 W2 U1 U2.
have [V1 [ms1 [R1 K1]]] := computes_ex zero W1; have [V2 [ms2 [R2 K2]]] := computes_ex zero W2.
exists V1, V2; split=> //; split=> // geqb view sch phi G old hs nl un.
have [y Y] := sim_partial_never geqb view K1 K2 phi G G (sim_check (q_nodeV q) (q_weightV q) eps) old hs nl.
have UV1 := unitary_realises W1 U1 R1; have UV2 := unitary_realises W2 U2 R2.
eexists; exists y; split; first exact: Y.
have u1 : inner (reduce_vec G (V1 *m phi)) (reduce_vec G (V1 *m phi)) = 1 by rewrite reduce_unit inner_unitary.
have u2 : inner (reduce_vec G (V2 *m phi)) (reduce_vec G (V2 *m phi)) = 1 by rewrite reduce_unit inner_unitary.
split=> [H|H].
- apply/not_all_prob => HP; apply: (@sim_never_refutes C Lg (q_nodeV q) (q_weightV q) eps e0 _ _ u1 u2 1 _ H).
  by rewrite scale1r; exact/reduce_eq_prob.
- suff -> : \sum_(m : basis Lg | zeros G m) (sqrtC (prob G (V1 *m phi) m) - sqrtC (prob G (V2 *m phi) m)) ^+ 2
          = inner (reduce_vec G (V1 *m phi) - reduce_vec G (V2 *m phi)) (reduce_vec G (V1 *m phi) - reduce_vec G (V2 *m phi)).
    exact: (sim_close e0 u1 u2 hw H).
  rewrite inner_sum big_mkcond /=; apply: eq_bigr => m _.
  have AB (a b : vec) : amp (a - b) m = amp a m - amp b m by rewrite /amp !mxE.
  rewrite AB !amp_reduce; case: ifP => _; last by rewrite subrr mulr0.
  rewrite mulrC -normCK real_normK // rpredB // ger0_real // sqrtC_ge0 prob_ge0 //.
Qed.
End S.
Print Assumptions C59_alternating_sound.
Print Assumptions C59_alternating_exact.
Print Assumptions C59_alternating_run.
Print Assumptions C59_construction_exact.
Print Assumptions C59_construction_never_rejects.
Print Assumptions C59_simulation.

Section Demo.
Variable C : numClosedFieldType.
Notation T3 := [finType of option bool].
Notation E3 := [eqType of option bool].

(** "The result will be not_equivalent if and only if the circuits are not partially equivalent" (PartialEquivalence.ipynb)
    fails in one direction for the construction checker: qubit 0 is garbage, one circuit rotates qubit 1, the other applies
    Z and then the same rotation. The verdict is 'equivalent' although superpositions are told apart by a measurement. *)
Theorem C59_construction_superpositions_refuted :
  exists (c1 c2 : circuit bool bool (gate C bool_eqType)) (A G : {set bool_finType}),
    [/\ wf_circuit (Lg := bool_finType) (Ph := bool_eqType) c1, wf_circuit (Lg := bool_finType) (Ph := bool_eqType) c2,
        unitary_circuit (Lg := bool_finType) (Ph := bool_eqType) c1 & unitary_circuit (Lg := bool_finType) (Ph := bool_eqType) c2] /\
    (forall (q : package C bool_finType bool_eqType) (sch : appscheme) (old : criterion),
      exact_package q -> scheme_for c1 c2 sch -> is_lookahead sch = false ->
      exists y, con_run_partial (q_equals q) (q_view q) false sch never c1 c2 A A G G (con_check (q_close q) (q_nodeM q) (q_weightM q)) old
                = RVerdict _ _ _ _ _ Equivalent y) /\
    (forall V1 V2, realises c1 V1 -> realises c2 V2 -> ~ partially_equivalent A G V1 V2).
Proof.
have W1 : wf_circuit (Lg := bool_finType) (rot_circuit C) by apply: qc2_wf.
have W2 : wf_circuit (Lg := bool_finType) (zrot_circuit C) by apply: qc2_wf.
have U1 : unitary_circuit (Lg := bool_finType) (rot_circuit C) by apply: qc2_unitary => g [<-|[]]; exact: rgate_unitary.
have U2 : unitary_circuit (Lg := bool_finType) (zrot_circuit C).
  by apply: qc2_unitary => g [<-|[<-|[]]]; [exact: zgate_unitary|exact: rgate_unitary].
exists (rot_circuit C), (zrot_circuit C), set0, [set false]; split=> //; split.
- move=> q sch old hq hs nl; have [V1 [V2 [R1 [R2 H]]]] := C59_construction_exact hq false W1 W2 U1 U2.
  have [v [y [Y [Ev _]]]] := H (q_equals q) (q_view q) sch set0 [set false] old hs nl; exists y; rewrite Y; congr RVerdict.
  by apply/Ev; rewrite (rot_V R1) (zrot_V R2); exact: rot_same_on_basis.
- move=> V1 V2 /rot_V -> /zrot_V ->; exact: rot_not_pe.
Qed.
(** ... and in the other direction for the alternating checker, although canHandle() accepts the circuits: a data qubit and two
    ancillaries that are not measured; one circuit couples the data qubit with one ancillary, the other one with the other. *)
Theorem C59_alternating_mixed_ancillaries_refuted :
  exists (c1 c2 : circuit (option bool) (option bool) (gate C E3)) (A G : {set T3}),
    [/\ wf_circuit (Lg := T3) (Ph := E3) c1, wf_circuit (Lg := T3) (Ph := E3) c2,
        unitary_circuit (Lg := T3) (Ph := E3) c1 & unitary_circuit (Lg := T3) (Ph := E3) c2] /\
    [/\ can_handle (Lg := T3) (Ph := E3) c1 c2 A A, ancillaries_handled (Lg := T3) (Ph := E3) c1 c2 A &
        forall V1 V2, realises (Lg := T3) (Ph := E3) c1 V1 -> realises (Lg := T3) (Ph := E3) c2 V2 -> partially_equivalent A G V1 V2] /\
    (forall (q : package C T3 E3) (isClose : mat C T3 -> bool) (sch : appscheme) (old : criterion),
      partial_test G isClose -> equals_exact (q_equals q) c1 c2 -> scheme_for c1 c2 sch -> is_lookahead sch = false ->
      exists y, alt_run (q_equals q) (q_view q) (None : E3) (q_size q) sch never c1 c2 A (alt_check isClose (q_weight q)) old
                = RVerdict _ _ _ _ _ NotEquivalent y).
Proof.
exists (xx_circuit C true), (xx_circuit C false), two_anc, two_anc; split; first by split; [exact: xx_wf|exact: xx_wf|exact: xx_unitary|exact: xx_unitary].
split; first by split; [exact: xx_handle|exact: xx_handled|move=> V1 V2 /xx_V -> /xx_V ->; exact: xx_pe].
move=> q isClose sch old hp he hs nl.
have [V1 [V2 [R1 R2 H]]] := runs_compute (None : E3) (@xx_wf C true) (@xx_wf C false) (@xx_unitary C true).
have [HA _ _] := H (q_equals q) (q_view q) sch old hs.
have [|y Y _] := HA (q_size q) two_anc (alt_check isClose (q_weight q)).
  by rewrite /alt_conditions nl; split=> //; exact: xx_placement.
exists y; rewrite Y /alt_check (_ : isClose _ = false) //; apply/negP => /hp.
by rewrite (xx_V R1) (xx_V R2); exact: xx_not_blocks.
Qed.

(** the hypotheses above are met *)
Example C59_hypotheses_met :
  [/\ partial_test two_anc (@demo_partial C T3 two_anc), exact_package (demo_package C T3 E3),
      equals_exact (q_equals (demo_package C T3 E3)) (xx_circuit C true) (xx_circuit C false),
      scheme_for (xx_circuit C true) (xx_circuit C false) SOneToOne &
      @same_node_test C [lmodType C of vec C T3] (q_nodeV (demo_package C T3 E3)) /\
      @same_weight_test C [lmodType C of vec C T3] (q_nodeV (demo_package C T3 E3)) (q_weightV (demo_package C T3 E3))].
Proof.
split; [exact: demo_partial_test|exact: demo_exact|exact: demo_equals_exact|by []|split=> //; by move=> e f; exact: demo_nodeP].
Qed.
(** one circuit that leaves all ancillaries alone: the empty circuit against RXX *)
Example C59_exact_hypotheses_met :
  let c2 := mkCircuit _ _ _ nil [:: None; Some false; Some true] id [:: (None, None)] : circuit (option bool) (option bool) (gate C E3) in
  [/\ wf_circuit (Lg := T3) (Ph := E3) (xx_circuit C true), wf_circuit (Lg := T3) (Ph := E3) c2,
      unitary_circuit (Lg := T3) (Ph := E3) c2 & forall q, q \in two_anc -> leaves_alone (Lg := T3) (Ph := E3) c2 q].
Proof.
move=> c2; split; [exact: xx_wf| |by move=> o []|].
- split=> //=; by split=> // q; rewrite !inE => /eqP ->.
- move=> q Hq; split; [by move=> i _ /= _ o []|left; split; first by move: Hq; rewrite !inE => /orP[] /eqP ->].
  by move=> i _ /= ->; split; [move: Hq; rewrite !inE => /orP[] /eqP ->|move=> o []].
Qed.
End Demo.
Print Assumptions C59_construction_superpositions_refuted.
Print Assumptions C59_alternating_mixed_ancillaries_refuted.
