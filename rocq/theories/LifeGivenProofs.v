(** Lemmas for C85: circuits as given. *)
From Coq Require Import BinNums NArith Arith List Lia.
From mathcomp Require Import all_ssreflect all_fingroup all_algebra.
From Verif Require Import Criterion Config SeqFlow SeqSpec ParFlow ParSpec ParAgain ParAgainSpec StateGen StateGenSpec StateGenProofs2 Perm PermSpec Prep PrepSpec Passes PassesSpec Schemes DDCheck DDSpec
  Qubits QubitsProofs DDSem DDSemProofs2 DDMain DDFlow DDFlowProofs PrepSem PrepSemProofs PrepSemProofs2 PrepSemProofs3 PropPrep PropPrepSem Stim StimSpec StimProofs PrepProofs3 StimSem
  StimSemProofs PropStim LiftProofs ZX ZXSem EndToEnd EndToEndProofs Choice ParDecide
  Construct ConstructProofs ConstructProofs2 ConstructProofs3 LifeSpec LifeProofs LifeSem LifeSemProofs LifeGivenSpec RelationProofs.
Set Implicit Arguments.
Unset Strict Implicit.
Unset Printing Implicit Defensive.
Import GRing.Theory Num.Theory.
Local Open Scope ring_scope.

Section P.
Variable C : numClosedFieldType.
Local Notation gate := (gate C nat_eqType).
Local Notation op := (op nat gate).
Local Notation circ := (circ op).
Local Notation mat n := (mat C [finType of 'I_n.+1]).
Local Notation vec n := (vec C [finType of 'I_n.+1]).

Theorem life_given nd n m (c1 c2 c1' c2' : circ) :
  wf_circ c1 -> wf_circ c2 -> acts_inside c1 -> acts_inside c2 -> garbage_unread c1 -> garbage_unread c2 -> ancillaries_last c1 ->
  unitary_circuit (as_circuit n c1) -> unitary_circuit (as_circuit n c2) ->
  prepare (@on_qubits C) nd c1 c2 = PVal (c1', c2') -> maxn (q_n c1) (q_n c2) = n.+1 -> q_n c1' = m.+1 ->
  forall zero : nat, exists V1 V2 : mat n, [/\ realises (as_circuit n c1) V1, realises (as_circuit n c2) V2 &
  forall (MT : Type) (word : MT -> N * MT) unif (clifford : stab -> vec m), clifford_states clifford ->
  forall (used : list (LifeSpec.settings stimulus (gen MT))) (ma : manager stimulus (gen MT)), life used ma ->
  (forall x, List.In x used -> checks_prepared zero c1' c2' word unif clifford x) ->
  definitive (r_eq (lf_res ma)) -> true_verdict (common_ancillaries n c1 c2) V1 V2 (r_eq (lf_res ma))].
Proof.
move=> W1 W2 a1 a2 g1 g2 L U1 U2 EP En Em zero.
have [Em2 [F [[Wf1 Wf2] Fm R1 R2 EA]]] := prep_sem W1 W2 a1 a2 g1 g2 EP En Em.
have Fi : injective F.
  by move=> a b e; apply: val_inj; case: (ltngtP a b) => //; rewrite -Fm e ltnn.
have [X1 [X2 [o [q1 [q2 _]]]]] := C40_prepare (@on_qubits C) nd c1 c2 W1 W2.
move: o; rewrite EP => -[? ?]; subst X1 X2.
have U1' : unitary_circuit (as_circuit m c1') by move=> o; rewrite /= q1 => Ho; apply: (unitary_op_down Fi); exact: U1.
have U2' : unitary_circuit (as_circuit m c2') by move=> o; rewrite /= q2 => Ho; apply: (unitary_op_down Fi); exact: U2.
have [V1 [V2 [r1 r2 H]]] := life_true_dd zero Wf1 Wf2 U1' U2'.
exists (lift F V1), (lift F V2); split; [by apply/R1; exists V1|by apply/R2; exists V2|].
move=> MT word unif cl hc used ma hl ab dv; apply: (true_lift Fi); rewrite -EA (common_own Em Em2).
apply: (H (own_ancillaries m c1') (own_ancillaries m c2') _ _ used ma hl) dv => x hx; have [ex wz fa _ [q [s [eps [hq hs e0 hd]]]]] := ab x hx.
split=> //; split=> //; split=> //; exists q, s, eps, (ket cl); split=> // y [z [hz [g [g' Eg]]]].
have [_ _ _ [t hst] _] := ab z hz; have [fuel Ey] := (hst g y g').1 Eg.
rewrite -(common_own Em Em2); apply: ket_fits => // r rA.
exact: (@stimulus_above _ _ _ _ _ _ _ _ _ _ _ _ Ey _ (common_top W1 W2 EP L Em Em2 rA)).
Qed.

Theorem life_constructed : forall (apply : pass -> circ -> circ) isEmpty isDynamic varfree nd cfg n m (c1 c2 c1' c2' : circ) (s : Passes.settings),
  good_circuit n c1 -> good_circuit n c2 -> ancillaries_agree c1 c2 -> isDynamic c1 = false -> isDynamic c2 = false ->
  (forall p, List.In p (schedule (opts cfg) false) -> keeps_meaning n (apply p)) ->
  construct (@on_qubits C) apply isEmpty isDynamic varfree nd cfg c1 c2 = PVal (c1', c2', s) -> maxn (q_n c1) (q_n c2) = n.+1 -> q_n c1' = m.+1 ->
  forall zero : nat, exists V1 V2 : mat n, [/\ realises (as_circuit n c1) V1, realises (as_circuit n c2) V2 &
  forall (MT : Type) (word : MT -> N * MT) unif (clifford : stab -> vec m), clifford_states clifford ->
  forall (used : list (LifeSpec.settings stimulus (gen MT))) (ma : manager stimulus (gen MT)), life used ma ->
  (forall x, List.In x used -> checks_constructed zero c1' c2' word unif clifford x) -> zx_fine m c1' c2' used ->
  definitive (r_eq (lf_res ma)) -> true_verdict (common_ancillaries n c1 c2) V1 V2 (r_eq (lf_res ma))].
Proof.
move=> apply isEmpty isDynamic varfree nd cfg n m c1 c2 c1' c2' s G1 G2 AG d1 d2 KM EC En Em zero.
have [o1 [o2 [[[W1 a1 g1 P1 U1] [W2 a2 g2 P2 U2] L En'] EP EA [r1 r2] [e12 hA CH alt]]]] := construct_facts G1 G2 AG d1 d2 KM EC En Em.
have [Em2 [F [[Wf1 Wf2] Fm R1 R2 EF]]] := C64_operators_kept W1 W2 a1 a2 g1 g2 EP En' Em.
have Fi : injective F.
  by move=> a b e; apply: val_inj; case: (ltngtP a b) => //; rewrite -Fm e ltnn.
have [X1 [X2 [o [q1 [q2 _]]]]] := C40_prepare (@on_qubits C) nd o1 o2 W1 W2.
move: o; rewrite EP => -[? ?]; subst X1 X2.
have U1' : unitary_circuit (as_circuit m c1') by move=> o; rewrite /= q1 => Ho; apply: (unitary_op_down Fi); exact: U1.
have U2' : unitary_circuit (as_circuit m c2') by move=> o; rewrite /= q2 => Ho; apply: (unitary_op_down Fi); exact: U2.
have [V1 [V2 [s1 s2 H]]] := life_true zero Wf1 Wf2 U1' U2'.
exists (lift F V1), (lift F V2); split; [by apply: r1; apply/R1; exists V1|by apply: r2; apply/R2; exists V2|].
move=> MT word unif cl hc used ma hl ab hz dv; apply: (true_lift Fi).
have E12 : F @^-1: common_ancillaries n c1 c2 = own_ancillaries m c1' :&: own_ancillaries m c2' by rewrite -(common_own Em Em2) EF EA.
rewrite E12; apply: (H _ _ _ _ used ma hl) dv => [x hx|x y hx hy uy Pos].
- have [ex _ [q [sch [eps [hq hs e0 hd]]]]] := ab x hx.
  split=> //; split; first by split=> _ //; exact: hA.
  exists q, sch, eps, (ket cl); split=> // z [w [hw [g [g' Eg]]]].
  have [_ [t hst] _] := ab w hw; have [fuel Ey] := (hst g z g').1 Eg.
  rewrite -(common_own Em Em2); apply: ket_fits => // r rA.
  exact: (@stimulus_above _ _ _ _ _ _ _ _ _ _ _ _ Ey _ (common_top W1 W2 EP L Em Em2 rA)).
- have [F1 F2 ng [tr Z]] := hz (ex_intro _ y (conj hy uy)); have [zd tx] := Z x hx; have [_ ty] := Z y hy.
  apply: positive_any_ancillaries => //; apply: (zx_verdict_true Wf1 Wf2 U1' U2' F1 F2 ng s1 s2 zd _ Pos).
  by case: uy => _; rewrite tx -ty.
Qed.

(** a run of a constructed manager that returns gives a life with a definitive verdict *)
Lemma life_met (apply : pass -> circ -> circ) isEmpty isDynamic varfree nd cfg n m (c1 c2 c1' c2' : circ) (s : Passes.settings)
    (q : package C [finType of 'I_m.+1] nat_eqType) (sch : schemes) (zero : nat) (MT : Type) (word : MT -> N * MT) unif t (e : env stimulus (gen MT))
    (cl : stab -> vec m) fuel (pf : env stimulus (gen MT) -> mgr stimulus (gen MT) -> outcome (mgr stimulus (gen MT))) g pp :
  let p1 := as_circuit m c1' in let p2 := as_circuit m c2' in let A1 := own_ancillaries m c1' in let A2 := own_ancillaries m c2' in
  let c := constructed cfg s in
  good_circuit n c1 -> good_circuit n c2 -> ancillaries_agree c1 c2 -> isDynamic c1 = false -> isDynamic c2 = false ->
  (forall p, List.In p (schedule (opts cfg) false) -> keeps_meaning n (apply p)) -> exact_configured cfg ->
  construct (@on_qubits C) apply isEmpty isDynamic varfree nd cfg c1 c2 = PVal (c1', c2', s) -> maxn (q_n c1) (q_n c2) = n.+1 -> q_n c1' = m.+1 ->
  exact_package q -> good_schemes q p1 p2 sch -> clifford_states cl -> stimuli_of word unif c1' c2' t e ->
  describes q sch zero p1 p2 A1 A2 1 (ket cl) e -> checkers_constructible e c -> plain_sequential_run fuel e c (fresh c g pp) -> runZXChecker (exec c) = false ->
  exists (used : list (LifeSpec.settings stimulus (gen MT))) (ma : manager stimulus (gen MT)),
    [/\ life used ma, (forall x, List.In x used -> checks_constructed zero c1' c2' word unif cl x) /\ used <> nil,
        zx_fine m c1' c2' used & definitive (r_eq (lf_res ma))].
Proof.
move=> p1 p2 A1 A2 c G1 G2 AG d1 d2 KM EX EC En Em hq hs hc St D X Y NZ.
have [V1 [V2 [R1 R2 R]]] := construct_seq G1 G2 AG d1 d2 KM EX EC En Em zero.
have [ma' [Rn Ra]] := R q sch 1 hq hs ltr01 MT word unif t e cl hc St D X fuel pf _ Y.
have [[_ _ F _ _] _] := Y.
have L0 := life_new (Stim := stimulus) c g pp.
have L1 := @life_run _ _ _ _ e fuel pf false ma' (List.map (fun k => (Some k, false)) (m_checkers ma')) L0 (or_introl F) Rn (or_introl (Forall_nil _)).
have {}L1 := L1 ltac:(by rewrite map_map).
have [FE FV] : e_empty e = false /\ e_varfree e = true.
  by move: F; rewrite /choose_flow; case: (anythingToExecute _) => //=; case: (e_empty e) => //; case: (e_varfree e).
have CC : checks_constructed zero c1' c2' word unif cl (e, c).
  split=> //; first by exists t.
  by exists q, sch, 1; split=> //; exact: ltr01.
have l1 : (q_n c1 <= n.+1)%N by rewrite -En leq_maxl.
have l2 : (q_n c2 <= n.+1)%N by rewrite -En leq_maxr.
exists [:: (e, c)]; eexists; split; [exact: L1| | |].
- by split=> // x [<-|[]].
- by move=> [y [[<-|[]] [[uz|uz] _]]]; [move: uz; rewrite NZ|move: uz; rewrite /= FV].
- by case: (right_answer_cases (good_unitary G1 l1 R1) (good_unitary G2 l2 R2) Ra) => Ev; rewrite /= Ev; do ?[by left|right].
Qed.
End P.
