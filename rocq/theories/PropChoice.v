(** C66: the answer does not depend on which of the exact checkers is configured -- if both circuits have the same ancillaries. *)
From Coq Require Import BinNums NArith.
From mathcomp Require Import all_ssreflect all_fingroup all_algebra.
From Verif Require Import Criterion Config SeqFlow SeqSpec SeqDemo Schemes DDCheck DDSpec Qubits QubitsProofs DDSem DDFlow DDFlowProofs DDDemo DDDemoProofs DDDemoProofs2
  DDDemoProofs3 VerdictSpec Choice ChoiceProofs.
Set Implicit Arguments.
Unset Strict Implicit.
Unset Printing Implicit Defensive.
Import GRing.Theory Num.Theory.
Local Open Scope ring_scope.

Section P.
Variables (C : numClosedFieldType) (Lg : finType) (Ph : eqType).
Local Notation mat := (mat C Lg).
Local Notation vec := (vec C Lg).
Local Notation gate := (gate C Ph).
Local Notation circuit := (circuit Ph Lg gate).

(** two undisturbed sequential runs on the same circuits, each with the alternating or the construction checker and otherwise different
    configurations, schemes, thresholds, stimuli and decision-diagram packages, answer the same *)
Theorem C66_same_answer : forall (zero : Ph) (c1 c2 : circuit) (A : {set Lg}),
  wf_circuit c1 -> wf_circuit c2 -> unitary_circuit c1 -> unitary_circuit c2 -> ancillaries_handled c1 c2 A ->
  forall (q q' : package C Lg Ph) (s s' : schemes) (eps eps' : C)
    (Stim Gen Stim' Gen' : Type) (stim : Stim -> vec) (stim' : Stim' -> vec) (e : env Stim Gen) (e' : env Stim' Gen') fuel fuel' pf pf' m m',
  exact_package q -> good_schemes q c1 c2 s -> exact_package q' -> good_schemes q' c1 c2 s' -> 0 < eps -> 0 < eps' ->
  describes q s zero c1 c2 A A eps stim e -> describes q' s' zero c1 c2 A A eps' stim' e' ->
  stimuli_fit A stim e (m_gen m) -> stimuli_fit A stim' e' (m_gen m') ->
  undisturbed fuel e m -> undisturbed fuel' e' m' -> exact_configured (m_cfg m) -> exact_configured (m_cfg m') ->
  exists r r', [/\ SeqFlow.run fuel pf e m = Returned r, SeqFlow.run fuel' pf' e' m' = Returned r' & r_eq (m_res r) = r_eq (m_res r')].
Proof. by move=> zero c1 c2 A W1 W2 U1 U2 hA q q' s s' eps eps' Stim Gen Stim' Gen' stim stim' e e' fuel fuel' pf pf' m m'; exact: same_answer. Qed.

(** with different ancillaries, an equivalence reported by the construction checker is about the inputs that are zero on the ancillaries of
    EITHER circuit (the alternating checker's is about the common ones, C32) *)
Theorem C66_construction_either_ancillary : forall (isClose : mat -> bool) (sameNode sameWeight : mat -> mat -> bool) (V1 V2 : mat) (A1 A2 : {set Lg}),
  closeness_test isClose -> @same_node_test C [lmodType C of mat] sameNode -> unitary V1 -> unitary V2 ->
  con_check isClose sameNode sameWeight (V1 *m proj0 C A1, V2 *m proj0 C A2) <> NotEquivalent ->
  exists2 w, `|w| = 1 & V1 *m proj0 C (A1 :|: A2) = w *: (V2 *m proj0 C (A1 :|: A2)).
Proof. exact: con_union. Qed.
End P.
Print Assumptions C66_same_answer.
Print Assumptions C66_construction_either_ancillary.

Section Demo.
Variable C : numClosedFieldType.
Local Notation Lg := bool_finType.
Local Notation gate := (gate C bool_eqType).
Local Notation pkg := (demo_package C Lg bool_eqType).

(** X on qubit 1 with ancillary qubit 0, against CX from 0 to 1 and X on 1 without ancillaries: with the alternating checker every run answers
    'not equivalent', with the construction checker alone 'equivalent' (maybe up to global phase) *)
Theorem C66_different_ancillaries_refuted : exists (c1 c2 : circuit bool_eqType Lg gate) (A1 A2 : {set Lg}),
  [/\ wf_circuit c1, wf_circuit c2, unitary_circuit c1 & unitary_circuit c2] /\ can_handle c1 c2 A1 A2 /\
  forall (q : package C Lg bool_eqType) (s : schemes) (eps : C) (Stim Gen : Type) (stim : Stim -> vec C Lg) (e : env Stim Gen) fuel pf m,
  exact_package q -> good_schemes q c1 c2 s -> is_lookahead (s_alt s) = false -> describes q s false c1 c2 A1 A2 eps stim e ->
  undisturbed fuel e m -> runSimulationChecker (exec (m_cfg m)) = false ->
  exists2 r, SeqFlow.run fuel pf e m = Returned r &
    (runAlternatingChecker (exec (m_cfg m)) = true -> r_eq (m_res r) = NotEquivalent) /\
    (runAlternatingChecker (exec (m_cfg m)) = false -> runConstructionChecker (exec (m_cfg m)) = true ->
       r_eq (m_res r) = Equivalent \/ r_eq (m_res r) = EquivalentUpToGlobalPhase).
Proof.
exists (qc2 id id [:: X C true]), (qc2 id id [:: CX C false true; X C true]), [set false], set0.
split; first by split; [exact: qc2_wf|exact: qc2_wf|exact: c1_unitary|move=> o [<-|[<-|[]]]; [exact: cxgate_unitary|exact: xgate_unitary]].
split; first by apply/forallP => v; rewrite inE in_set0 andbF.
by move=> q s eps Stim Gen stim e fuel pf m; exact: runs_contradict.
Qed.

(** the hypotheses are met: both kinds of configuration, for the circuits of the counterexample *)
Example C66_hypotheses_met :
  let c1 := qc2 id id [:: X C true] in let c2 := qc2 id id [:: CX C false true; X C true] in
  let s := Schemes SOneToOne SOneToOne SOneToOne in
  let cfg a := demo_cfg (negb a) false a false 3%num (QArith_base.Qmake Z0 xH) true in
  [/\ exact_package pkg, good_schemes pkg c1 c2 s & is_lookahead (s_alt s) = false] /\
  forall stim a, exists e : env N N, describes pkg s false c1 c2 [set false] set0 1 stim e /\
    let m := mkMgr (cfg a) 0%num false nil empty_results in
    [/\ undisturbed 5 e m, runSimulationChecker (exec (m_cfg m)) = false, runAlternatingChecker (exec (m_cfg m)) = a & exact_configured (m_cfg m)].
Proof.
move=> c1 c2 s cfg.
have W1 : wf_circuit (Lg := Lg) c1 by exact: qc2_wf.
have W2 : wf_circuit (Lg := Lg) c2 by exact: qc2_wf.
have gs : good_schemes pkg c1 c2 s.
  split; split=> //; split; first exact: demo_equals_exact.
  exact: (@qc2_placement C id id id [:: xgate C true] [:: cxgate C false true; xgate C true]).
split; first by split=> //; exact: demo_exact.
move=> stim a.
have [ch [v1 [v2 [sm D]]]] := @describes_ex C Lg bool_eqType false c1 c2 W1 W2 (@c1_unitary C) pkg s [set false] set0 1 gs _ _ stim
  (demo_env (fun _ => false) MEquivalent MEquivalent ZEquivalent true false None).
have [hch _ _ _] := D; rewrite /= in hch.
have che : ch = true by rewrite hch; apply/forallP => x; rewrite inE in_set0 andbF.
exists (with_verdicts (demo_env (fun _ => false) MEquivalent MEquivalent ZEquivalent true false None) ch v1 v2 sm); split=> //.
split; [|by []|by []|by case: a; [left|right]].
split; first by case: a.
split; first by case: a.
split; first by rewrite che; case: a.
split=> //; exists [:: 0; 1; 2]%num, 3%num; split; first by do 3!(econstructor; first by reflexivity); constructor.
by split=> //; split=> //; apply/ltP.
Qed.
End Demo.
Print Assumptions C66_different_ancillaries_refuted.
