From Coq Require Import BinNums NArith QArith.
From mathcomp Require Import all_ssreflect all_fingroup all_algebra.
From Verif Require Import Criterion Config SeqFlow SeqSpec ParFlow ParSpec Perm PermSpec PermProofs ZX ZXSpec ZXProofs Schemes DDCheck DDSpec DDProofs Qubits
  QubitsProofs QubitsProofs2 DDSem DDSemProofs2 DDSemProofs3 DDFlow DDFlowProofs ZXSem ZXSemProofs ZXSemProofs2 EndToEnd VerdictSpec VerdictProofs.
Set Implicit Arguments.
Unset Strict Implicit.
Unset Printing Implicit Defensive.
Import GRing.Theory Num.Theory GroupScope.
Local Open Scope ring_scope.

Section ZX.
Variables (C : numClosedFieldType) (n : nat).
Local Notation Lg := [finType of 'I_n].
Local Notation gate := (gate C nat_eqType).
Local Notation circuit := (circuit nat_eqType Lg gate).
Local Notation mat := (mat C Lg).

Lemma proj0_none (Q : finType) : proj0 C (set0 : {set Q}) = 1%:M.
Proof. by apply: mxP => x y; rewrite entry_proj0 entry_1; case: forallP => [_|[]]; rewrite ?andbT // => q; rewrite inE. Qed.

(** the global phase of the reduced diagram is the phase between the circuits *)
Lemma zx_phase m (V : finType) (D : diagram C n m V) (ph : C) nd anc done (g1 g2 : nat -> bool) (c1 c2 : circuit) (V1 V2 : mat) v :
  wf_circuit c1 -> wf_circuit c2 -> unitary_circuit c1 -> unitary_circuit c2 -> full_maps c1 -> full_maps c2 ->
  wf_diagram D -> no_isolated D -> denotes D ph (wire_op c2 *m adj (wire_op c1)) ->
  realises c1 V1 -> realises c2 V2 -> (forall i : 'I_n, ~~ (g1 i && g2 i)) ->
  zx_answer nd anc done g1 g2 c1 c2 D ph = ZVerdict v -> v = Equivalent \/ v = EquivalentUpToGlobalPhase ->
  [/\ V2 = ph *: V1, `|ph| = 1 & v = if ph == 1 then Equivalent else EquivalentUpToGlobalPhase].
Proof.
move=> W1 W2 U1 U2 F1 F2 WD NI [P1 [r r0 Dn]] R1 R2 ng Rn Pos.
have [q1 [s1 [E1 A1 S1 SS1 ->]]] := combined_circuit W1 F1 R1.
have [q2 [s2 [E2 A2 S2 _ ->]]] := combined_circuit W2 F2 R2.
move: Rn; rewrite /zx_answer => /(proj1 (run_positive _ _ _ _ _ _ _ _ _ _ _ _ _ _ _ E1 E2 Pos)) [_ [AP Ev]].
have em : m = n by case: AP.
subst m.
have ph0 : ph != 0 by rewrite -normr_gt0 P1 ltr01.
have Ez : zx_sem D = (ph^-1 * r) *: (wire_op c2 *m adj (wire_op c1)).
  by rewrite -scalerA -Dn scalerA mulVf // scale1r.
have z0 : ph^-1 * r != 0 by rewrite mulf_neq0 ?invr_eq0 // lt0r_neq0.
have [UU1 UU2] : unitary (wire_op c1) /\ unitary (wire_op c2) by split; exact: unitary_wire_op.
have [K [UK AK EK NK]] := plain_acts WD z0 UU1 UU2 Ez A1 A2 AP.
have {}NK := NK ng; move: NK; rewrite (spiders_bare WD NI) mulr1 => NK.
have K1 : `|(ph^-1 * r)^-1| = 1.
  move: UK; rewrite NK /unitary adj_scale adj_1 -scalemxAl mul1mx scalerA => /(congr1 (fun M => entry M [ffun _ => false] [ffun _ => false])).
  rewrite entry_scale !entry_1 eqxx mulr1 -normCK => /eqP; by rewrite pexpr_eq1 ?normr_ge0 // => /eqP.
have r1 : r = 1.
  move: K1; rewrite normfV normrM normfV P1 invr1 mul1r gtr0_norm // => /eqP; by rewrite invr_eq1 => /eqP.
move: NK; rewrite r1 mulr1 invrK => NK; split=> //.
by rewrite EK NK -scalemxAl mul1mx.
Qed.
End ZX.

Section Flow.
Variables (C : numClosedFieldType) (n : nat).
Local Notation Lg := [finType of 'I_n].
Local Notation gate := (gate C nat_eqType).
Local Notation circuit := (circuit nat_eqType Lg gate).
Local Notation mat := (mat C Lg).
Local Notation vec := (vec C Lg).
Variables (zero : nat) (c1 c2 : circuit) (g1 g2 : nat -> bool).
Hypotheses (W1 : wf_circuit c1) (W2 : wf_circuit c2) (U1 : unitary_circuit c1) (U2 : unitary_circuit c2).
Hypotheses (F1 : full_maps c1) (F2 : full_maps c2) (ng : forall i : 'I_n, ~~ (g1 i && g2 i)).

Lemma handled_none : ancillaries_handled c1 c2 (set0 : {set 'I_n}).
Proof. by move=> v; rewrite inE. Qed.

Lemma zx_verdict_true (V1 V2 : mat) (Stim Gen : Type) (e : env Stim Gen) : realises c1 V1 -> realises c2 V2 ->
  zx_describes g1 g2 c1 c2 e -> e_transformable e = true ->
  zcrit (e_ancilla e) (e_zx e) = Equivalent \/ zcrit (e_ancilla e) (e_zx e) = EquivalentUpToGlobalPhase ->
  true_verdict set0 V1 V2 (zcrit (e_ancilla e) (e_zx e)).
Proof.
move=> R1 R2 hz ht Pos; have [m [V [D [ph [WD Dn NI An]]]]] := hz ht.
have [E P1 Ev] := zx_phase W1 W2 U1 U2 F1 F2 WD (NI Pos) Dn R1 R2 ng An Pos.
have ph0 : ph != 0 by rewrite -normr_gt0 P1 ltr01.
rewrite Ev; case: eqP => [e1|/eqP ne] /=; first by rewrite E e1 scale1r.
exists ph^-1; split; first by rewrite normfV P1 invr1.
  by rewrite invr_eq1.
by rewrite /agree_up_to E -scalemxAl scalerA mulVf // scale1r.
Qed.

Theorem all_true : exists V1 V2, [/\ realises c1 V1, realises c2 V2 &
  forall (q : package C Lg nat_eqType) (s : schemes) (eps : C), exact_package q -> good_schemes q c1 c2 s -> 0 < eps ->
  forall (Stim Gen : Type) (stim : Stim -> vec) (e : env Stim Gen),
    describes q s zero c1 c2 set0 set0 eps stim e -> zx_describes g1 g2 c1 c2 e ->
    (forall fuel pf m m', stimuli_fit set0 stim e (m_gen m) -> choose_flow e (m_cfg m) = FSequential -> SeqFlow.run fuel pf e m = Returned m' ->
       definitive (r_eq (m_res m')) -> true_verdict set0 V1 V2 (r_eq (m_res m'))) /\
    (forall c g pp x, stimuli_fit set0 stim e g -> sane_sims c -> enough_threads e c -> par_returned e c g pp x ->
       definitive (r_eq (p_res x)) -> true_verdict set0 V1 V2 (r_eq (p_res x)))].
Proof.
have [V1 [V2 [R1 R2 H]]] := flows_true zero W1 W2 U1 U2.
exists V1, V2; split=> // q s eps hq hs eps0 Stim Gen stim e hd hz; have {H} := H _ _ _ _ _ hq hs eps0 _ _ stim e hd; rewrite setI0 => /(_ (zx_verdict_true R1 R2 hz)) [S P].
have AF cfg : ancillaries_fit cfg c1 c2 set0 set0 by split=> // _ _; rewrite setI0; exact: handled_none.
by split=> [fuel pf m m'|c g pp x]; [exact: S|exact: P].
Qed.
End Flow.

Lemma draws_prefix (Stim Gen : Type) (e : env Stim Gen) (l1 l2 : list Stim) (x : Stim) g g' :
  draws e g (List.app l1 (x :: l2)) g' -> drawn_from e g x.
Proof.
elim: l1 g => [|y l1 IH] g /= H; inversion H as [|? ? g1 ? ? E D]; subst.
  by exists nil, g1; econstructor; [exact: E|constructor].
by have [l [g2 D2]] := IH _ D; exists (y :: l), g2; econstructor; [exact: E|exact: D2].
Qed.

Section Decide.
Variables (C : numClosedFieldType) (Lg : finType) (Ph : eqType).
Local Notation mat := (mat C Lg).
Local Notation vec := (vec C Lg).
Local Notation gate := (gate C Ph).
Local Notation circuit := (circuit Ph Lg gate).

Lemma exclusive (A : {set Lg}) (V1 V2 : mat) v : unitary V2 ->
  v = Equivalent \/ v = EquivalentUpToGlobalPhase \/ v = NotEquivalent -> true_verdict A V1 V2 v ->
  [/\ v = Equivalent <-> V1 *m proj0 C A = V2 *m proj0 C A,
      v = EquivalentUpToGlobalPhase <-> exists w, [/\ `|w| = 1, w != 1 & agree_up_to A w V1 V2] &
      v = NotEquivalent <-> forall w, ~ agree_up_to A w V1 V2].
Proof.
move=> U2 Hv T.
have nz : V2 *m proj0 C A != 0.
  apply/eqP => /(congr1 (fun M => entry (adj V2 *m M) (basis0 Lg) (basis0 Lg))).
  rewrite mulmxA (unitary_left U2) mul1mx mulmx0 entry_proj0 eqxx zeros0 entry_0 => /eqP; by rewrite oner_eq0.
have x1 : V1 *m proj0 C A = V2 *m proj0 C A -> forall w, agree_up_to A w V1 V2 -> w = 1.
  move=> E w; rewrite /agree_up_to E => /eqP; rewrite -subr_eq0 -[X in X - _]scale1r -scalerBl scaler_eq0 (negbTE nz) orbF subr_eq0.
  by move/eqP.
have one : V1 *m proj0 C A = V2 *m proj0 C A -> agree_up_to A 1 V1 V2 by rewrite /agree_up_to scale1r.
case: Hv T => [->|[->|->]] /= T; split; split=> // H.
- by case: H => w [_ /eqP nw /(x1 T)].
- by case: (H 1); apply: one.
- by case: T => w [_ /eqP nw /(x1 H)].
- by case: T => w [_ _ /H].
- by case: (T 1); apply: one.
- by case: H => w [_ _ /T].
Qed.

Variables (zero : Ph) (c1 c2 : circuit).
Hypotheses (W1 : wf_circuit c1) (W2 : wf_circuit c2) (U1 : unitary_circuit c1) (U2 : unitary_circuit c2).

Lemma refuting_dec (Stim Gen : Type) (e : env Stim Gen) l : (exists n x, first_refuting e l n x) \/ (forall n x, ~ first_refuting e l n x).
Proof.
elim: l => [|y l [[n [x [l1 l2 E F R _]]]|IH]].
- by right=> n x [[|? ?] l2].
- left; case Ey: (e_sim e y) => //.
  + exists (N.of_nat (length (y :: l1)) + 1)%num, x; apply: (@first_at _ _ e (y :: l) _ x (y :: l1) l2) => //=; first by rewrite E.
    by constructor=> //; rewrite /nonref Ey.
  + exists (N.of_nat (length (y :: l1)) + 1)%num, x; apply: (@first_at _ _ e (y :: l) _ x (y :: l1) l2) => //=; first by rewrite E.
    by constructor=> //; rewrite /nonref Ey.
  + by exists 1%num, y; apply: (@first_at _ _ e (y :: l) _ y nil l).
- case Ey: (e_sim e y) => //.
  + right=> n x [[|z l1] l2] /= [E1 E2] F R; first by rewrite -E1 Ey in R.
    by move=> _; inversion F; subst; apply: (IH _ x); exists l1 l2.
  + right=> n x [[|z l1] l2] /= [E1 E2] F R; first by rewrite -E1 Ey in R.
    by move=> _; inversion F; subst; apply: (IH _ x); exists l1 l2.
  + by left; exists 1%num, y; apply: (@first_at _ _ e (y :: l) _ y nil l).
Qed.

Theorem run_decides : exists V1 V2, [/\ realises c1 V1, realises c2 V2 &
  forall (q : package C Lg Ph) (s : schemes) (A1 A2 : {set Lg}) (eps : C), exact_package q -> good_schemes q c1 c2 s -> 0 < eps ->
  let A := A1 :&: A2 in
  forall (Stim Gen : Type) (stim : Stim -> vec) (e : env Stim Gen),
    describes q s zero c1 c2 A1 A2 eps stim e ->
    forall fuel pf m l g', stimuli_fit A stim e (m_gen m) ->
    choose_flow e (m_cfg m) = FSequential -> never_fires e (m_cfg m) -> no_exceptions e (m_cfg m) ->
    runAlternatingChecker (exec (m_cfg m)) = true /\ (can_handle c1 c2 A1 A2 -> ancillaries_handled c1 c2 A) \/
    runAlternatingChecker (exec (m_cfg m)) = false /\ runConstructionChecker (exec (m_cfg m)) = true /\ A1 = A2 ->
    r_performed (m_res m) = 0%num -> draws e (m_gen m) l g' -> N.of_nat (length l) = maxSims (sim (m_cfg m)) ->
    (length l < fuel)%coq_nat ->
    (runSimulationChecker (exec (m_cfg m)) = true -> l = nil -> e_ndebug e = true) ->
    exists m', SeqFlow.run fuel pf e m = Returned m' /\
      [/\ r_eq (m_res m') = Equivalent <-> V1 *m proj0 C A = V2 *m proj0 C A,
          r_eq (m_res m') = EquivalentUpToGlobalPhase <-> exists w, [/\ `|w| = 1, w != 1 & agree_up_to A w V1 V2] &
          r_eq (m_res m') = NotEquivalent <-> forall w, ~ agree_up_to A w V1 V2]].
Proof.
have [V1 [V2 [R1 R2 H]]] := checkers_true zero W1 W2 U1 U2.
exists V1, V2; split=> // q s A1 A2 eps hq hs eps0 A Stim Gen stim e hd fuel pf m l g' hst hf hn hx hc hp hl hN hfu hnd.
have UV2 := unitary_realises W2 U2 R2.
have [HA HC HS] := H _ _ _ _ _ hq hs eps0 _ _ _ _ hd.
have [[hsim [n [x fr]]]|nr] : (runSimulationChecker (exec (m_cfg m)) = true /\ exists n x, first_refuting e l n x) \/
    (runSimulationChecker (exec (m_cfg m)) = true -> forall n x, ~ first_refuting e l n x).
  by case: (runSimulationChecker _); [case: (refuting_dec e l) => X; [left|right]|right].
- have [m' [Rm E]] := verdict_refuted fuel pf e m l g' n x hf hn hx hp hl hN hfu hsim fr.
  exists m'; split=> //; rewrite E /=; apply: exclusive => //; first by auto.
  case: fr => l1 l2 El _ Rx _; apply: (HS x _ Rx); apply: hst; move: hl; rewrite El; exact: draws_prefix.
- have [m' [Rm E]] := verdict_agree fuel pf e m l g' hf hn hx hp hl hN hfu nr hnd.
  exists m'; split=> //; rewrite E /=; apply: exclusive => //.
    rewrite /table; case: hc => [[-> _]|[-> [-> _]]]; first by case: (e_alt e); auto.
    by case: (e_con e); auto.
  rewrite /table; case: hc => [[ha hA]|[-> [-> e12]]]; last by have := HC e12; case: (e_con e).
  have [_ [/(_ ha) [_ hch] _]] := hx.
  by rewrite ha; have := HA hA hch; case: (e_alt e).
Qed.
End Decide.
