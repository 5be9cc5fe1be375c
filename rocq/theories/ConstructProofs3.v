(** Definitive verdicts of arbitrary runs are true of the circuits as given: proofs for C68. *)
From Coq Require Import BinNums NArith List Arith Lia.
From mathcomp Require Import all_ssreflect all_fingroup all_algebra.
From Verif Require Import Criterion Config SeqFlow SeqSpec VerdictSpec ParFlow ParSpec PropSeq PropPar Perm PermSpec Prep PrepSpec PropPrep Passes PassesSpec StateGen Stim StimSpec
  Schemes DDCheck DDSpec Qubits DDSem DDSemProofs2 DDFlow DDFlowProofs PrepSem PropPrepSem LiftProofs PrepSemProofs3 ZX ZXSem EndToEnd EndToEndProofs Choice ParDecide StimSem PropStim Construct ConstructProofs ConstructProofs2.
Set Implicit Arguments.
Unset Strict Implicit.
Unset Printing Implicit Defensive.
Import GRing.Theory Num.Theory.
Local Open Scope ring_scope.

Section P.
Variable C : numClosedFieldType.
Local Notation gate := (gate C nat_eqType).
Local Notation op := (op nat gate).
Local Notation circ := (circ op).
Local Notation mat n := (mat C [finType of 'I_n.+1]).
Local Notation vec n := (vec C [finType of 'I_n.+1]).

Lemma positive_any_ancillaries (Lg : finType) (A : {set Lg}) (V1 V2 : Qubits.mat C Lg) v : v = Equivalent \/ v = EquivalentUpToGlobalPhase ->
  true_verdict set0 V1 V2 v -> true_verdict A V1 V2 v.
Proof.
case=> -> /=; rewrite ?(proj0_none C Lg) ?mulmx1; first by move=> ->.
by move=> [w [w1 w2]]; rewrite /agree_up_to proj0_none !mulmx1 => E; exists w; split=> //; rewrite /agree_up_to E -scalemxAl.
Qed.
Lemma true_lift n m (F : 'I_m.+1 -> 'I_n.+1) (A : {set 'I_n.+1}) (V1 V2 : mat m) v : injective F ->
  true_verdict (F @^-1: A) V1 V2 v -> true_verdict A (lift F V1) (lift F V2) v.
Proof.
move=> Fi; have LA w := lift_agree Fi A w V1 V2; case: v => //=.
- by move=> N w /LA; exact: N.
- by have := LA 1; rewrite /agree_up_to !scale1r => -[_ H]; exact: H.
- by move=> [w [w1 w2 ag]]; exists w; split=> //; apply/LA.
Qed.

Theorem construct_sound : forall (apply : pass -> circ -> circ) isEmpty isDynamic varfree nd cfg n m (c1 c2 c1' c2' : circ) (s : settings),
  good_circuit n c1 -> good_circuit n c2 -> ancillaries_agree c1 c2 -> isDynamic c1 = false -> isDynamic c2 = false ->
  (forall p, List.In p (schedule (opts cfg) false) -> keeps_meaning n (apply p)) ->
  construct (@on_qubits C) apply isEmpty isDynamic varfree nd cfg c1 c2 = PVal (c1', c2', s) -> maxn (q_n c1) (q_n c2) = n.+1 -> q_n c1' = m.+1 ->
  let p1 := as_circuit m c1' in let p2 := as_circuit m c2' in let A1 := own_ancillaries m c1' in let A2 := own_ancillaries m c2' in
  let A := common_ancillaries n c1 c2 in let c := constructed cfg s in
  forall zero : nat, exists V1 V2 : mat n, [/\ realises (as_circuit n c1) V1, realises (as_circuit n c2) V2 &
  forall (q : package C [finType of 'I_m.+1] nat_eqType) (sch : schemes) (eps : C), exact_package q -> good_schemes q p1 p2 sch -> 0 < eps ->
  forall (MT : Type) (word : MT -> N * MT) unif t (e : env stimulus (gen MT)) (clifford : stab -> vec m),
    clifford_states clifford -> stimuli_of word unif c1' c2' t e -> describes q sch zero p1 p2 A1 A2 eps (ket clifford) e ->
    (runZXChecker (exec c) = true ->
      [/\ full_maps p1, full_maps p2, forall i : 'I_m.+1, ~~ (q_gar c1' i && q_gar c2' i) & zx_describes (q_gar c1') (q_gar c2') p1 p2 e]) ->
    (forall fuel pf ma ma', m_cfg ma = c -> choose_flow e c = FSequential -> SeqFlow.run fuel pf e ma = Returned ma' ->
       definitive (r_eq (m_res ma')) -> true_verdict A V1 V2 (r_eq (m_res ma'))) /\
    (forall g pp x, sane_sims c -> enough_threads e c -> par_returned e c g pp x -> definitive (r_eq (p_res x)) -> true_verdict A V1 V2 (r_eq (p_res x)))].
Proof.
move=> apply isEmpty isDynamic varfree nd cfg n m c1 c2 c1' c2' s G1 G2 AG d1 d2 KM EC En Em p1 p2 A1 A2 A c zero.
have [o1 [o2 [[[W1 a1 g1 P1 U1] [W2 a2 g2 P2 U2] L En'] EP EA [r1 r2] [e12 hA CH alt]]]] := construct_facts G1 G2 AG d1 d2 KM EC En Em.
have [Em2 [F [[Wf1 Wf2] Fm R1 R2 EF]]] := C64_operators_kept W1 W2 a1 a2 g1 g2 EP En' Em.
have Fi : injective F.
  by move=> a b e; apply: val_inj; case: (ltngtP a b) => //; rewrite -Fm e ltnn.
have [X1 [X2 [o [q1 [q2 _]]]]] := C40_prepare (@on_qubits C) nd o1 o2 W1 W2.
move: o; rewrite EP => -[? ?]; subst X1 X2.
have U1' : unitary_circuit p1 by move=> o; rewrite /p1 /= q1 => Ho; apply: (unitary_op_down Fi); exact: U1.
have U2' : unitary_circuit p2 by move=> o; rewrite /p2 /= q2 => Ho; apply: (unitary_op_down Fi); exact: U2.
have [V1 [V2 [s1 s2 H]]] := checkers_true zero Wf1 Wf2 U1' U2'.
exists (lift F V1), (lift F V2); split; [by apply: r1; apply/R1; exists V1|by apply: r2; apply/R2; exists V2|].
move=> q sch eps hq hs e0 MT word unif t e cl hc hst hd hz.
have [HA HC HS] := H q sch A1 A2 eps hq hs e0 _ _ (ket cl) e hd.
have E12 : A1 :&: A2 = F @^-1: A by rewrite -(common_own Em Em2) EF EA.
have T v : true_verdict (A1 :&: A2) V1 V2 v -> true_verdict A (lift F V1) (lift F V2) v by rewrite E12; exact: true_lift.
have TZ : runZXChecker (exec c) = true -> e_transformable e = true ->
     zcrit (e_ancilla e) (e_zx e) = Equivalent \/ zcrit (e_ancilla e) (e_zx e) = EquivalentUpToGlobalPhase ->
     true_verdict A (lift F V1) (lift F V2) (zcrit (e_ancilla e) (e_zx e)).
  move=> rz tr Pos; apply: T; apply: positive_any_ancillaries => //; have [F1 F2 ng zd] := hz rz.
  exact: (zx_verdict_true Wf1 Wf2 U1' U2' F1 F2 ng s1 s2 zd).
have TS g : forall y, drawn_from e g y -> e_sim e y = SNotEquivalent -> true_verdict A (lift F V1) (lift F V2) NotEquivalent.
  move=> y dy Ey; apply: T; apply: (HS y) => //; rewrite -(common_own Em Em2).
  exact: (C65_stimuli_fit W1 W2 EP L Em Em2 hc hst) dy.
have TA : runAlternatingChecker (exec c) = true -> e_canHandle e = true -> true_verdict A (lift F V1) (lift F V2) (mcrit (e_alt e)).
  by move=> _ ch; apply: T; exact: HA.
have TC : runConstructionChecker (exec c) = true -> true_verdict A (lift F V1) (lift F V2) (mcrit (e_con e)).
  by move=> _; apply: T; exact: HC.
split.
- move=> fuel pf ma ma' Ec cf Rn df; apply: (@C01_sound _ _ (true_verdict A (lift F V1) (lift F V2)) fuel pf e ma ma') => //; rewrite ?Ec //.
  exact: TS.
- move=> g pp x ss et pr df; apply: (@C02_parallel_sound _ _ (true_verdict A (lift F V1) (lift F V2)) e c g pp x) => //.
  exact: TS.
Qed.
End P.
