(** What the answer for parameterised circuits says: proofs for C70. *)
From Coq Require Import BinNums NArith List Arith QArith Qabs Lia.
From mathcomp Require Import all_ssreflect all_fingroup all_algebra.
From Verif Require Import Criterion Config SeqFlow SeqSpec VerdictSpec PropSeq ParFlow ParSpec Perm PermSpec Prep PrepSpec Passes PrepSem PropPrepSem PyParam PyParamSpec PyParamProofs PropPyParam ParamInst ParamProofs
  DDCheck DDSpec Qubits QubitsProofs DDSem DDSemProofs DDSemProofs2 DDFlow ZX ZXSpec ZXProofs ZXSem EndToEndProofs ParDecide StateGen Stim StimSpec StimSem Schemes PassesSpec Construct ConstructProofs3 ParamSem.
Set Implicit Arguments.
Unset Strict Implicit.
Unset Printing Implicit Defensive.
Import GRing.Theory Num.Theory.
Local Open Scope ring_scope.

Section P.
Variable C : numClosedFieldType.
Local Notation gate := (gate C nat_eqType).
Local Notation op := (op nat gate).
Local Notation pcirc := (circ (pop op)).

Lemma honest_differ n (c1 c2 : circ op) : honest n c1 c2 NotEquivalent -> differ n c1 c2.
Proof. by move=> [V1 [V2 [r1 r2 H]]]; exists V1, V2; split=> //; apply: H; do 3!right. Qed.
Lemma checked_honest n cfg (c1 c2 : circ op) v : checked n cfg c1 c2 v -> honest n c1 c2 v.
Proof.
move=> [apply [isEmpty [isDynamic [varfree [nd [m [c1' [c2' [s [[G1 G2 AG d1 d2] [[KM EC En Em] H]]]]]]]]]]].
have {H} [q [sch [eps [zero [[hq hs e0] [MT [word [unif [t [e [cl [[hc hst hd] H]]]]]]]]]]]] := H.
have EC' : construct (@on_qubits C) apply isEmpty isDynamic varfree nd (setZXChecker false cfg) c1 c2 = PVal (c1', c2', s) by exact: EC.
have [V1 [V2 [R1 R2 K]]] := @construct_sound C apply isEmpty isDynamic varfree nd (setZXChecker false cfg) n m c1 c2 c1' c2' s G1 G2 AG d1 d2 KM EC' En Em zero.
exists V1, V2; split=> // df.
have [|KS KP] := K q sch eps hq hs e0 MT word unif t e cl hc hst hd; first by [].
case: H => [[fuel [pf [ma [ma' [Ec cf Rn Ev]]]]]|[g [pp [x [ss et pr Ev]]]]]; move: df; rewrite Ev => df.
  exact: (KS fuel pf ma ma' Ec cf Rn df).
exact: (KP g pp x ss et pr df).
Qed.
Lemma made_honest n cfg s (c1 c2 : pcirc) e : checks_made n cfg s c1 c2 e -> honest_checks n s c1 c2 e.
Proof. by move=> [h0 hi hr]; split=> [|i|]; apply: checked_honest; [exact: h0|exact: hi|exact: hr]. Qed.
Lemma honest_agree n (c1 c2 : circ op) v : honest n c1 c2 v -> v = Equivalent \/ v = EquivalentUpToGlobalPhase ->
  exists2 w, `|w| = 1 & agree n w c1 c2.
Proof.
move=> [V1 [V2 [r1 r2 H]]] [e|e]; move: H; rewrite e /=.
  by move=> /(_ (or_introl erefl)) E; exists 1; rewrite ?normr1 //; exists V1, V2; split=> //; rewrite /agree_up_to scale1r.
by move=> /(_ (or_intror (or_introl erefl))) [w [w1 _ A]]; exists w => //; exists V1, V2.
Qed.

Section Flow.
Variables (n : nat) (s : sampling) (c1 c2 : pcirc) (e : penv).
Hypothesis H : honest_checks n s c1 c2 e.
Lemma check_pairs k x : List.In x (all_checks e k) -> exists2 p, List.In p (sampled_pairs s c1 c2 k) & honest n p.1 p.2 (r_eq x).
Proof.
have [h0 hi hr] := H; rewrite /all_checks /sampled_pairs => -[<-|/in_app_iff [/in_map_iff [i [<- Ii]]|[<-|[]]]].
- by exists (zero_pair s c1 c2); [left|].
- exists (phase_pair s c1 c2 i); last exact: hi.
  right; apply/in_app_iff; left; apply/in_map_iff; exists i; split=> //.
- by exists (random_pair s c1 c2) => //; right; apply/in_app_iff; right; left.
Qed.
Lemma refuted timeout k r log : check_parameterized e timeout k = (r, log) -> r_eq r = NotEquivalent ->
  exists2 p, List.In p (sampled_pairs s c1 c2 k) & differ n p.1 p.2.
Proof.
move=> E N; have [l' [x [El [Rx _]]]] := C45_non_equivalence_justified _ _ _ _ _ E N.
have [[r' P] _] := C45_checks_made _ _ _ _ _ E.
have Ix : List.In x (all_checks e k) by rewrite P El; apply/in_app_iff; left; apply/in_app_iff; right; left.
have [p Ip Hp] := check_pairs Ix; exists p => //; by move: Hp; rewrite Rx; exact: honest_differ.
Qed.
Lemma accepted timeout k r log : check_parameterized e timeout k = (r, log) -> log <> nil -> r_eq r = Equivalent \/ r_eq r = EquivalentUpToGlobalPhase ->
  exists2 w, `|w| = 1 & agree n w (bind (s_rnd s) c1) (bind (s_rnd s) c2).
Proof.
move=> E NE D; have cE : consideredEquivalent (r_eq r) = true by case: D => ->.
have [[_ l0]|[_ [Er _]]] := C45_equivalence_justified _ _ _ _ _ E cE; first by case: NE.
have [_ _ hr] := H; rewrite Er in D; exact: honest_agree hr D.
Qed.
End Flow.

(* rounding *)
Lemma bind_rounded_bind tol a (c : pcirc) : depends_on_numbers c -> nothing_to_round tol a c -> bind_rounded tol a c = bind a c.
Proof.
move=> dn nr; rewrite /bind_rounded /bind /with_ops; congr mkCirc.
have: forall o, List.In o (q_ops c) -> o_build o (rounded tol a o) = o_build o (values_of a o).
  by move=> o Io; apply: dn => //; apply: rounded_harmless => x Ix; exact: (nr o x Io Ix).
elim: (q_ops c) => [|o l IH] //= K; congr (_ :: _); [by apply: K; left|by apply: IH => o' I'; apply: K; right].
Qed.
Lemma refuted_given n s (c1 c2 : pcirc) e timeout k r log : honest_checks n s c1 c2 e -> depends_on_numbers c1 -> depends_on_numbers c2 ->
  (forall a, solved_values s c1 c2 k a -> nothing_to_round (s_tol s) a c1 /\ nothing_to_round (s_tol s) a c2) ->
  check_parameterized e timeout k = (r, log) -> r_eq r = NotEquivalent -> exists a, differ n (bind a c1) (bind a c2).
Proof.
move=> H d1 d2 NR E N; have [p [<-|/in_app_iff [/in_map_iff [i [<- Ii]]|[<-|[]]]] D] := refuted H E N.
- have [n1 n2] := NR _ (or_introl erefl); exists (zero_values (s_pinv s) (s_p s) c1 c2).
  by move: D; rewrite /zero_pair /= !bind_rounded_bind.
- have lt : (i < k)%N by move/in_seq: Ii => [_ /ltP].
  have [n1 n2] := NR _ (or_intror (ex_intro2 _ _ i lt erefl)); exists (phase_values (s_pinv s) (s_p s) c1 c2 (s_drawn s i)).
  by move: D; rewrite /phase_pair /= !bind_rounded_bind.
- by exists (s_rnd s).
Qed.

(* the symbolic check *)
Lemma prepare_bind actsOn nd a (c1 c2 c1' c2' : pcirc) : same_qubits actsOn c1 -> same_qubits actsOn c2 -> prepare actsOn nd c1 c2 = PVal (c1', c2') ->
  prepare (@on_qubits C) nd (bind a c1) (bind a c2) = PVal (bind a c1', bind a c2').
Proof.
move=> s1 s2 E.
have := @prepare_map _ _ actsOn (@on_qubits C) (fun o => o_build o (values_of a o)) nd c1 c2 (fun o Io q => s1 o Io a q) (fun o Io q => s2 o Io a q).
by rewrite E => ->.
Qed.
Lemma phase0_any nd anc done g1 g2 o1 l1 n1 o2 l2 n2 m (V : finType) k (D : diagram C k m V) b b' v : v = Equivalent \/ v = EquivalentUpToGlobalPhase ->
  zx_run nd anc done g1 g2 o1 l1 n1 o2 l2 n2 (view b D) = ZVerdict v ->
  v = (if b then Equivalent else EquivalentUpToGlobalPhase) /\
  zx_run nd anc done g1 g2 o1 l1 n1 o2 l2 n2 (view b' D) = ZVerdict (if b' then Equivalent else EquivalentUpToGlobalPhase).
Proof.
have cw p1 p2 ws : check_wires nd g1 g2 p1 p2 (view b' D) ws = check_wires nd g1 g2 p1 p2 (view b D) ws.
  by elim: ws => [|i r IH] //=; rewrite IH.
move=> Pos; rewrite /zx_run -[z_nedges (view b' D)]/(z_nedges (view b D)) -[z_nqubits (view b' D)]/(z_nqubits (view b D)).
case: (Nat.eqb _ _); last by case: anc done Pos => [] [] /= [->|->].
case: (invertPermutations o1 _ _) => [r1|] //; case: (invertPermutations o2 _ _) => [r2|] //; rewrite cw.
case: (check_wires _ _ _ _ _ _ _) => [[]| | |] //=; last by case: anc done Pos => [] [] /= [->|->].
by case: done Pos => /= [[->|->]|_ [<-]].
Qed.
Lemma symbolic_prepared m (c1 c2 : pcirc) (Stim Gen : Type) (en : env Stim Gen) fuel pf ma ma' :
  (forall a, wf_circuit (as_circuit m (bind a c1)) /\ wf_circuit (as_circuit m (bind a c2))) ->
  (forall a, unitary_circuit (as_circuit m (bind a c1)) /\ unitary_circuit (as_circuit m (bind a c2))) ->
  reads_all m c1 -> reads_all m c2 -> (forall i : 'I_m.+1, ~~ (q_gar c1 i && q_gar c2 i)) ->
  zx_describes_symbolically m c1 c2 en -> choose_flow en (m_cfg ma) = FSymbolic -> SeqFlow.run fuel pf en ma = Returned ma' ->
  consideredEquivalent (SeqFlow.r_eq (m_res ma')) = true ->
  forall a, exists w, [/\ `|w| = 1, agree m w (bind a c1) (bind a c2) & SeqFlow.r_eq (m_res ma') = Equivalent -> w = 1].
Proof.
move=> W U F1 F2 ng Z cf R cE a.
have [[q0|[T q0]] [_ [_ [q1 [q2 [q3 _]]]]]] := C18_symbolic_verdicts fuel pf en ma ma' cf R; first by rewrite q0 in cE.
have [mm [V [D [ph [b [WD Dn b1 NI An]]]]]] := Z T.
have Pos : zcrit (e_ancilla en) (e_zx en) = Equivalent \/ zcrit (e_ancilla en) (e_zx en) = EquivalentUpToGlobalPhase.
  by move: cE q2 q3; rewrite q0; case: (zcrit _ _) => //; auto.
have [Eb Ea] := phase0_any (ph a == 1) Pos (An a).
have [[W1 W2] [U1 U2]] := (W a, U a).
have [V1 R1] : exists V1, realises (as_circuit m (bind a c1)) V1 by have [V1 [ms [R1 _]]] := computes_ex 0%N W1; exists V1.
have [V2 R2] : exists V2, realises (as_circuit m (bind a c2)) V2 by have [V2 [ms [R2 _]]] := computes_ex 0%N W2; exists V2.
have [EV P1 _] := zx_phase W1 W2 U1 U2 F1 F2 (WD a) (NI Pos a) (Dn a) R1 R2 ng Ea (ltac:(by case: (ph a == 1); auto)).
have p0 : ph a != 0 by rewrite -normr_gt0 P1 ltr01.
exists (ph a)^-1; split.
- by rewrite normfV P1 invr1.
- by exists V1, V2; split=> //; rewrite /agree_up_to EV -scalemxAl scalerA mulVf // scale1r.
- rewrite q0 Eb; case: (b) b1 => // b1 _; by rewrite b1 // invr1.
Qed.

Lemma symbolic_flow (Stim Gen : Type) (en : env Stim Gen) c : e_empty en = false -> e_varfree en = false ->
  choose_flow en (setZXChecker true (disableAllCheckers c)) = FSymbolic.
Proof. by rewrite /choose_flow => -> ->. Qed.
Lemma symbolic_given actsOn (apply : pass -> pcirc -> pcirc) isEmpty isDynamic varfree nd cfg n m (c1 c2 c1' c2' : pcirc) s
    (Stim Gen : Type) (en : env Stim Gen) fuel pf ma ma' e timeout k r :
  good_for_all_values n c1 -> good_for_all_values n c2 -> same_qubits actsOn c1 -> same_qubits actsOn c2 -> varfree c1 && varfree c2 = false ->
  construct actsOn apply isEmpty isDynamic varfree nd cfg c1 c2 = PVal (c1', c2', s) -> maxn (q_n c1) (q_n c2) = n.+1 -> q_n c1' = m.+1 ->
  reads_all m c1' -> reads_all m c2' -> (forall i : 'I_m.+1, ~~ (q_gar c1' i && q_gar c2' i)) ->
  zx_describes_symbolically m c1' c2' en -> e_empty en = false -> e_varfree en = false -> m_cfg ma = setZXChecker true (disableAllCheckers (constructed cfg s)) ->
  SeqFlow.run fuel pf en ma = Returned ma' -> r_eq (zx e) = SeqFlow.r_eq (m_res ma') ->
  check_parameterized e timeout k = (r, nil) -> consideredEquivalent (r_eq r) = true ->
  forall a, exists w, [/\ `|w| = 1, agree n w (bind a c1) (bind a c2) & r_eq r = Equivalent -> w = 1].
Proof.
move=> G1 G2 s1 s2 vf EC En Em F1 F2 ng Z ee ev Ec R Ez E cE a.
have [[er _]|[l0 _]] := C45_equivalence_justified _ _ _ _ _ E cE; last by move: l0; rewrite /all_checks => l0; discriminate l0.
have EP : prepare actsOn nd c1 c2 = PVal (c1', c2').
  move: EC; rewrite /construct /optimise vf /=; case: (prepare _ _ _ _) => [[d1 d2]| | |] //=.
  by case: (fallback _ _ _ _ _) => ? ?; case: (clamp_sims _ _ _ _) => [?|] // [<- <- _].
have EPa b : prepare (@on_qubits C) nd (bind b c1) (bind b c2) = PVal (bind b c1', bind b c2') by exact: (prepare_bind b s1 s2 EP).
have WU b : [/\ wf_circuit (as_circuit m (bind b c1')), wf_circuit (as_circuit m (bind b c2')),
    unitary_circuit (as_circuit m (bind b c1')) & unitary_circuit (as_circuit m (bind b c2'))].
  have [W1 a1 g1 U1] := G1 b; have [W2 a2 g2 U2] := G2 b.
  have [_ [F [[Wf1 Wf2] Fm _ _ _]]] := C64_operators_kept W1 W2 a1 a2 g1 g2 (EPa b) En Em.
  have Fi : injective F.
    by move=> x y exy; apply: val_inj; case: (ltngtP x y) => //; rewrite -Fm exy ltnn.
  have [X1 [X2 [o [q1 [q2 _]]]]] := PropPrep.C40_prepare (@on_qubits C) nd (bind b c1) (bind b c2) W1 W2.
  rewrite (EPa b) in o; case: o => ? ?; subst X1 X2; split=> //.
    by move=> o; rewrite -[c_ops _ _ _ _]/(q_ops (bind b c1')) q1 => Ho; apply: (PrepSemProofs3.unitary_op_down Fi); exact: U1.
  by move=> o; rewrite -[c_ops _ _ _ _]/(q_ops (bind b c2')) q2 => Ho; apply: (PrepSemProofs3.unitary_op_down Fi); exact: U2.
have cE' : consideredEquivalent (SeqFlow.r_eq (m_res ma')) = true by rewrite -Ez -er.
have cf : choose_flow en (m_cfg ma) = FSymbolic by rewrite Ec; exact: symbolic_flow.
have [|b|w [w1 ag we]] := symbolic_prepared _ _ F1 F2 ng Z cf R cE' a.
- by move=> b; have [] := WU b.
- by have [] := WU b.
exists w; split=> //; last by rewrite er Ez.
have [W1 a1 g1 U1] := G1 a; have [W2 a2 g2 U2] := G2 a.
exact/(C64_agreement_kept w W1 W2 a1 a2 g1 g2 (EPa a) En Em).
Qed.

(* phases survive the rounding *)
Lemma symb_in (c1 c2 : pcirc) o x : (List.In o (q_ops c1) \/ List.In o (q_ops c2)) -> List.In (PSym x) (o_params o) -> List.In x (symb_exprs c1 c2).
Proof.
move=> Io Ix; apply/in_flat_map; exists o; split; first by apply/in_app_iff; case: Io; auto.
by apply/in_flat_map; exists (PSym x); split=> //; left.
Qed.
Lemma phases_survive tol a (c1 c2 : pcirc) vs : List.Forall2 (fun x v => Qeq (x_value x a) v) (symb_exprs c1 c2) vs ->
  (forall v, List.In v vs -> Qlt (Qabs v) tol -> Qeq v 0) ->
  (forall o y, List.In o (q_ops c1) \/ List.In o (q_ops c2) -> List.In (PNum y) (o_params o) -> Qlt (Qabs y) tol -> Qeq y 0) ->
  nothing_to_round tol a c1 /\ nothing_to_round tol a c2.
Proof.
move=> F hv hn.
have K o y : List.In o (q_ops c1) \/ List.In o (q_ops c2) -> List.In y (values_of a o) -> Qlt (Qabs y) tol -> Qeq y 0.
  move=> Io /in_map_iff [[y'|x] [<- Ig]] /=; first exact: hn Io Ig.
  have Ix := symb_in Io Ig.
  have [v [Iv Ev]] : exists v, List.In v vs /\ Qeq (x_value x a) v.
    elim: F Ix => [|x' v' xs' vs' E' F' IH] //= [<-|I']; first by exists v'; auto.
    by have [v [Iv Ev]] := IH I'; exists v; auto.
  by rewrite Ev => L; rewrite (hv v Iv).
by split=> o y Io Iy L; apply: (K o) => //; auto.
Qed.
Lemma solved_phases (pinv : list (list Q) -> list Q -> nat -> Q) p (c1 c2 : pcirc) phases :
  (forall M b, (exists x, solves M b x) -> solves M b (pinv M b)) -> List.Forall (affine_below p) (symb_exprs c1 c2) ->
  (exists a, List.Forall2 (fun x v => Qeq (x_value x a) v) (symb_exprs c1 c2) phases) ->
  List.Forall2 (fun x v => Qeq (x_value x (phase_values pinv p c1 c2 phases)) v) (symb_exprs c1 c2) phases.
Proof.
move=> hp ha [a F]; have L : length phases = length (symb_exprs c1 c2) by elim: F => [|? ? ? ? _ _ IH] //=; rewrite IH.
apply/(C46_phases p _ _ _ ha L); apply: hp; exists a; exact/(C46_phases p _ _ _ ha L).
Qed.
End P.
