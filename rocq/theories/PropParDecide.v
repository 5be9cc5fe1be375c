(** C67: an uninterrupted parallel run decides equivalence, whatever the schedule. *)
From Coq Require Import BinNums NArith List Arith.
From mathcomp Require Import all_ssreflect all_fingroup all_algebra.
From Verif Require Import Criterion Config SeqFlow SeqSpec SeqDemo ParFlow ParSpec ParDemo PropPar Perm PermSpec ZX Schemes DDCheck DDSpec Qubits QubitsProofs DDSem DDSemProofs2
  DDFlow DDFlowProofs DDDemo DDDemoProofs DDDemoProofs2 DDDemoProofs3 ZXSem ZXDemo ZXDemoProofs EndToEnd EndToEndProofs Choice StateGen Prep PrepSpec PropPrep PrepSem LiftProofs PrepSemProofs3
  StimSpec StimSem StimSemProofs PropPrepSem PropStim ParDecide ParDecideProofs ParDecideDemo.
Set Implicit Arguments.
Unset Strict Implicit.
Unset Printing Implicit Defensive.
Import GRing.Theory Num.Theory.
Local Open Scope ring_scope.

Section D.
Variables (C : numClosedFieldType) (Lg : finType) (Ph : eqType).
Local Notation mat := (mat C Lg).
Local Notation vec := (vec C Lg).
Local Notation gate := (gate C Ph).
Local Notation circuit := (circuit Ph Lg gate).

(** decision-diagram checkers only: under every schedule, run() returns and its verdict is the answer. [A1], [A2]: ancillaries of the circuits *)
Theorem C67_parallel_run_decides : forall (zero : Ph) (c1 c2 : circuit),
  wf_circuit c1 -> wf_circuit c2 -> unitary_circuit c1 -> unitary_circuit c2 ->
  exists V1 V2 : mat, [/\ realises c1 V1, realises c2 V2 &
  forall (q : package C Lg Ph) (s : schemes) (A1 A2 : {set Lg}) (eps : C), exact_package q -> good_schemes q c1 c2 s -> 0 < eps ->
  forall (Stim Gen : Type) (stim : Stim -> vec) (e : env Stim Gen), describes q s zero c1 c2 A1 A2 eps stim e ->
    forall c g pp x, ancillaries_fit c c1 c2 A1 A2 -> stimuli_fit (A1 :&: A2) stim e g -> exact_configured c -> par_undisturbed e c g ->
    ~ zx_runs e c -> run_to_end e c g pp x ->
    p_main x = MReturned /\ right_answer (A1 :&: A2) V1 V2 (r_eq (p_res x))].
Proof.
move=> zero c1 c2 W1 W2 U1 U2; have [V1 [V2 [R1 R2 H]]] := par_decides zero W1 W2 U1 U2.
exists V1, V2; split=> // q s A1 A2 eps hq hs eps0 Stim Gen stim e hd c g pp x fit hst ex un nz hr.
by apply: (H q s A1 A2 eps hq hs eps0 Stim Gen stim e hd) hst ex un _ hr => //; case.
Qed.
End D.
Print Assumptions C67_parallel_run_decides.

Section Z.
Variables (C : numClosedFieldType) (n : nat).
Local Notation Lg := [finType of 'I_n].
Local Notation gate := (gate C nat_eqType).
Local Notation circuit := (circuit nat_eqType Lg gate).
Local Notation mat := (mat C Lg).
Local Notation vec := (vec C Lg).
(** with the ZX checker, as long as it does not answer 'probably not equivalent' (circuits without ancillaries and common garbage) *)
Theorem C67_with_zx_checker : forall (zero : nat) (c1 c2 : circuit) (g1 g2 : nat -> bool),
  wf_circuit c1 -> wf_circuit c2 -> unitary_circuit c1 -> unitary_circuit c2 -> full_maps c1 -> full_maps c2 ->
  (forall i : 'I_n, ~~ (g1 i && g2 i)) ->
  exists V1 V2 : mat, [/\ realises c1 V1, realises c2 V2 &
  forall (q : package C Lg nat_eqType) (s : schemes) (eps : C), exact_package q -> good_schemes q c1 c2 s -> 0 < eps ->
  forall (Stim Gen : Type) (stim : Stim -> vec) (e : env Stim Gen), describes q s zero c1 c2 set0 set0 eps stim e -> zx_describes g1 g2 c1 c2 e ->
    forall c g pp x, stimuli_fit set0 stim e g -> exact_configured c -> par_undisturbed e c g ->
    ~ (zx_runs e c /\ zcrit (e_ancilla e) (e_zx e) = ProbablyNotEquivalent) -> run_to_end e c g pp x ->
    p_main x = MReturned /\ right_answer set0 V1 V2 (r_eq (p_res x))].
Proof. by move=> zero c1 c2 g1 g2; exact: par_decides_zx. Qed.
End Z.
Print Assumptions C67_with_zx_checker.

Section G.
Variable C : numClosedFieldType.
Local Notation gate := (gate C nat_eqType).
Local Notation op := (op nat gate).
Local Notation circ := (circ op).
Local Notation mat n := (mat C [finType of 'I_n.+1]).
Local Notation vec n := (vec C [finType of 'I_n.+1]).
(** from the circuits as given, through the preparation, with stimuli from the generator *)
Theorem C67_given_circuits : forall nd n m (c1 c2 c1' c2' : circ),
  wf_circ c1 -> wf_circ c2 -> acts_inside c1 -> acts_inside c2 -> garbage_unread c1 -> garbage_unread c2 -> ancillaries_last c1 ->
  unitary_circuit (as_circuit n c1) -> unitary_circuit (as_circuit n c2) ->
  prepare (@on_qubits C) nd c1 c2 = PVal (c1', c2') -> maxn (q_n c1) (q_n c2) = n.+1 -> q_n c1' = m.+1 ->
  let p1 := as_circuit m c1' in let p2 := as_circuit m c2' in let A1 := own_ancillaries m c1' in let A2 := own_ancillaries m c2' in
  let A := common_ancillaries n c1 c2 in
  forall zero : nat, exists V1 V2 : mat n, [/\ realises (as_circuit n c1) V1, realises (as_circuit n c2) V2 &
  forall (q : package C [finType of 'I_m.+1] nat_eqType) (s : schemes) (eps : C), exact_package q -> good_schemes q p1 p2 s -> 0 < eps ->
  forall (MT : Type) (word : MT -> N * MT) unif t (e : env stimulus (gen MT)) (clifford : stab -> vec m),
    clifford_states clifford -> stimuli_of word unif c1' c2' t e -> describes q s zero p1 p2 A1 A2 eps (ket clifford) e ->
    forall c g pp x, ancillaries_fit c p1 p2 A1 A2 -> exact_configured c -> par_undisturbed e c g -> ~ zx_runs e c -> run_to_end e c g pp x ->
    p_main x = MReturned /\ right_answer A V1 V2 (r_eq (p_res x))].
Proof.
move=> nd n m c1 c2 c1' c2' W1 W2 a1 a2 g1 g2 L U1 U2 EP En Em p1 p2 A1 A2 A zero.
have [Em2 [F [[Wf1 Wf2] Fm R1 R2 EA]]] := prep_sem W1 W2 a1 a2 g1 g2 EP En Em.
have Fi : injective F.
  by move=> a b e; apply: val_inj; case: (ltngtP a b) => //; rewrite -Fm e ltnn.
have [X1 [X2 [o [q1 [q2 _]]]]] := C40_prepare (@on_qubits C) nd c1 c2 W1 W2.
move: o; rewrite EP => -[? ?]; subst X1 X2.
have U1' : unitary_circuit p1 by move=> o; rewrite /p1 /= q1 => Ho; apply: (unitary_op_down Fi); exact: U1.
have U2' : unitary_circuit p2 by move=> o; rewrite /p2 /= q2 => Ho; apply: (unitary_op_down Fi); exact: U2.
have [V1 [V2 [r1 r2 H]]] := C67_parallel_run_decides zero Wf1 Wf2 U1' U2'.
exists (lift F V1), (lift F V2); split; [by apply/R1; exists V1|by apply/R2; exists V2|].
move=> q s eps hq hs e0 MT word unif t e cl hc hst hd c g pp x fit ex un nz hr.
have sf : stimuli_fit (A1 :&: A2) (ket cl) e g by rewrite -(common_own Em Em2); exact: C65_stimuli_fit W1 W2 EP L Em Em2 hc hst.
have [ret [H1 H2 H3]] := H q s A1 A2 eps hq hs e0 _ _ (ket cl) e hd c g pp x fit sf ex un nz hr.
have LA w : agree_up_to A w (lift F V1) (lift F V2) <-> agree_up_to (A1 :&: A2) w V1 V2 by rewrite -(common_own Em Em2) EA; exact: lift_agree.
have L1 : lift F V1 *m proj0 C A = lift F V2 *m proj0 C A <-> V1 *m proj0 C (A1 :&: A2) = V2 *m proj0 C (A1 :&: A2).
  by have := LA 1; rewrite /agree_up_to !scale1r.
split=> //; split.
- by rewrite H1 L1.
- by rewrite H2; split=> -[w [w1 w2 ag]]; exists w; split=> //; apply/LA.
- by rewrite H3; split=> N w ag; apply: (N w); apply/LA.
Qed.
End G.
Print Assumptions C67_given_circuits.

(** ** the ZX checker may destroy a verdict *)
Section Demo.
Variable C : numClosedFieldType.
Local Notation Lg := [finType of 'I_2].
Local Notation gate := (gate C nat_eqType).
Local Notation circuit := (circuit nat_eqType Lg gate).
Local Notation pkg := (demo_package C Lg nat_eqType).
Let zs : N -> vec C Lg := fun _ => \col_i ((i == enum_rank (basis0 Lg))%:R : C).
Let d1 : circuit := zqc [:: Had C 0%N] out_id.
Let d2 : circuit := zqc [:: ZSwap C; Had C 1%N] out_swap.
Let ds := Schemes SOneToOne SOneToOne SOneToOne.

Lemma zs_unit t : fits set0 (zs t).
Proof.
split; last by rewrite proj0_0 mul1mx.
rewrite /inner mxE (bigD1 (enum_rank (basis0 Lg))) //= !mxE eqxx conjC_nat mulr1 big1 ?addr0 // => i /negbTE N.
by rewrite !mxE N mulr0.
Qed.
Lemma zs_fit (e : env N N) g : stimuli_fit set0 zs e g. Proof. by move=> t _; exact: zs_unit. Qed.
Lemma d_good : good_schemes pkg d1 d2 ds.
Proof.
split; split=> //; split; first exact: demo_equals_exact.
move=> pre1 o1 post1 pre2 o2 post2 /= E1 E2 H N1 N2; exfalso.
have {E1} e1 : o1 = Had C 0%N by case: pre1 E1 => [|a [|b p]] //= -[].
have {E2} e2 : o2 = ZSwap C \/ o2 = Had C 1%N.
  by case: pre2 E2 => [|a [|b [|? ?]]] //= -[]; auto.
by move: H; rewrite e1; case: e2 => ->.
Qed.
(** the circuits of C50_C63_hypotheses_met, which agree. The ZX checker answers 'probably not equivalent' (as it may); one schedule of a run
    with the alternating checker, one simulation and the ZX checker ends with 'no information' *)
Theorem C67_zx_disagreement_refuted : exists c1 c2 : circuit,
  [/\ wf_circuit c1, wf_circuit c2, unitary_circuit c1 & unitary_circuit c2] /\
  (forall V1 V2, realises c1 V1 -> realises c2 V2 -> V1 = V2) /\
  exists (q : package C Lg nat_eqType) (s : schemes) (stim : N -> vec C Lg) (e : env N N),
    [/\ exact_package q, good_schemes q c1 c2 s & describes q s 0%N c1 c2 set0 set0 1 stim e] /\
    exists c g pp x, [/\ stimuli_fit set0 stim e g, exact_configured c, par_undisturbed e c g & run_to_end e c g pp x] /\
      p_main x = MReturned /\ r_eq (p_res x) = NoInformation.
Proof.
have [[W1 W2 U1 U2] [F1 F2 WD NI]] := demo_wf C.
have same V1 V2 : realises d1 V1 -> realises d2 V2 -> V1 = V2.
  move=> R1 R2; have [|E _ _] := zx_phase W1 W2 U1 U2 F1 F2 WD NI (demo_denotes C) R1 R2 _ (demo_answer C) (or_introl erefl); first by [].
  by rewrite E scale1r.
exists d1, d2; split; first by split.
split=> //; exists pkg, ds, zs.
have [ch [a [c [sm D]]]] := @describes_ex C Lg nat_eqType 0%N d1 d2 W1 W2 U1 pkg ds set0 set0 1 d_good _ _ zs pe_env.
have [hch ha hc hs] := D; rewrite /= in hch.
have D' : describes pkg ds 0%N d1 d2 set0 set0 1 zs (lost_env ch a c (sm 0%num)) by split=> // t; exact: (hs 0%num).
exists (lost_env ch a c (sm 0%num)); split; first by split=> //; [exact: demo_exact|exact: d_good].
have [V1 [V2 [R1 R2 H]]] := checkers_true 0%N W1 W2 U1 U2.
have [_ _ HS] := H pkg ds set0 set0 1 (demo_exact _ _ _) d_good ltr01 _ _ zs _ D'.
have nr : sm 0%num <> SNotEquivalent.
  move=> E; have {}HS := HS 0%num; rewrite setI0 in HS; apply: (HS (zs_unit 0%num) E 1).
  by rewrite /agree_up_to scale1r (same _ _ R1 R2).
have che : ch = true by rewrite hch; apply/forallP => v; rewrite inE.
have [x [Rx [Mx Ex]]] := lost_run ch a c _ nr.
exists lost_cfg, 0%num, (QArith_base.Qmake Z0 xH), x; split; last by split; [exact: Mx|exact: Ex].
split; [exact: zs_fit|by left|rewrite che; exact: lost_undisturbed|split; [by exists lost_sched|exact: returned_stuck]].
Qed.
(** the hypotheses are met: the same circuits without the ZX checker *)
Example C67_hypotheses_met : [/\ wf_circuit d1, wf_circuit d2, unitary_circuit d1 & unitary_circuit d2] /\ [/\ exact_package pkg & good_schemes pkg d1 d2 ds] /\
  exists e : env N N, describes pkg ds 0%N d1 d2 set0 set0 1 zs e /\
    [/\ ancillaries_fit kept_cfg d1 d2 set0 set0, stimuli_fit (set0 :&: set0) zs e 0%num, exact_configured kept_cfg, par_undisturbed e kept_cfg 0%num & ~ zx_runs e kept_cfg] /\
    exists x, run_to_end e kept_cfg 0%num (QArith_base.Qmake Z0 xH) x.
Proof.
have [[W1 W2 U1 U2] _] := demo_wf C; split; first by split.
split; first by split; [exact: demo_exact|exact: d_good].
have [ch [a [c [sm D]]]] := @describes_ex C Lg nat_eqType 0%N d1 d2 W1 W2 U1 pkg ds set0 set0 1 d_good _ _ zs pe_env.
have [hch ha hc hs] := D; rewrite /= in hch.
have che : ch = true by rewrite hch; apply/forallP => v; rewrite inE.
exists (lost_env ch a c (sm 0%num)); split; first by split=> // t; exact: (hs 0%num).
split; first split.
- by split=> // _ _ v; rewrite setI0 inE.
- by rewrite setI0; exact: zs_fit.
- by left.
- rewrite che; exact: kept_undisturbed.
- by case.
have [acts [x [Rx [Mx _]]]] := kept_run a c (sm 0%num).
by exists x; split; [exists acts; rewrite che|exact: returned_stuck].
Qed.
End Demo.
Print Assumptions C67_zx_disagreement_refuted.
