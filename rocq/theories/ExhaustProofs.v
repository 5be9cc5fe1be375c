(** Proofs for C88: the flow that simulates every computational basis state. *)
From Coq Require Import List Bool NArith Arith Lia Permutation.
From mathcomp Require ssreflect.ssrbool.
From Verif Require Import Criterion Config SeqFlow SeqSpec ParFlow ParSpec ParProofs7 VerdictSpec VerdictProofs StateGen StateGenSpec StateGenProofs Prep Passes Construct Stim StimSpec StimProofs ExhaustSpec.
Import ListNotations.

(** the number of a list of bits, lowest first *)
Fixpoint num (l : list bool) : N := match l with [] => 0%N | b :: r => (2 * num r + N.b2n b)%N end.
Lemma num_bit l i : N.testbit (num l) (N.of_nat i) = nth i l false.
Proof.
  revert i. induction l as [|b l IH]; intros i; [destruct i; reflexivity|]. cbn [num]. destruct i as [|i].
  - apply N.testbit_0_r.
  - rewrite Nat2N.inj_succ, N.testbit_succ_r. apply IH.
Qed.
Lemma num_lt l : (num l < 2 ^ N.of_nat (length l))%N.
Proof.
  induction l as [|b l IH]; [reflexivity|]. cbn [num length]. rewrite Nat2N.inj_succ, N.pow_succ_r'.
  destruct b; cbn [N.b2n]; lia.
Qed.
Lemma input_state n k l : k <= n -> basis_input n k l -> exists v, (v < 2 ^ N.of_nat k)%N /\ basis_state n k v l.
Proof.
  intros K (L & Z). exists (num (firstn k l)). split.
  - pose proof (num_lt (firstn k l)) as H. now rewrite firstn_length_le in H by lia.
  - split; [exact L|]. split; [|exact Z]. intros i I. rewrite num_bit.
    rewrite <- (firstn_skipn k l) at 1. rewrite app_nth1; [reflexivity|]. rewrite firstn_length_le; lia.
Qed.
Lemma state_input n k v l : basis_state n k v l -> basis_input n k l.
Proof. intros (L & _ & Z). split; auto. Qed.

Lemma table_sims {Stim Gen} (e : env Stim Gen) c : only_simulations c -> table e c true = ProbablyEquivalent.
Proof. intros (_ & A & C & Z). unfold table. now rewrite A, C, Z. Qed.

Section Run.
Context {A MT : Type} (word : MT -> N * MT) (unif : N -> MT -> N * MT).
Hypotheses (F : fair unif) (IR : in_range unif).
Variables (c1 c2 : circ A) (e : env stimulus (gen MT)).
Hypothesis ST : stimuli_of word unif c1 c2 ComputationalBasis e.
Local Notation n := (Nat.max (q_n c1) (q_n c2)).
Local Notation k := (primary c1).

Lemma draws_of g l g' : stimuli word unif (e_ndebug e) n (n - k) ComputationalBasis g l g' -> draws e g l g'.
Proof.
  intros S. induction S as [g|g fuel s g1 l g2 E S IH]; [constructor|]. econstructor; [|exact IH].
  apply ST. exists fuel. exact E.
Qed.
Lemma draws_back g l g' : draws e g l g' -> stimuli word unif (e_ndebug e) n (n - k) ComputationalBasis g l g'.
Proof.
  intros D. induction D as [g|g s g1 l g' E D IH]; [constructor|]. apply ST in E as (fuel & E). econstructor; [exact E|exact IH].
Qed.
Lemma drawn_input g s : k <= 63 -> drawn_from e g s -> exists l, s = SBits l /\ basis_input n k l.
Proof.
  intros K (l & g' & D). pose proof (primary_le c1) as P. apply draws_back in D.
  destruct (stimuli_values word unif (e_ndebug e) n (n - k) g (l ++ [s]) g' IR ltac:(lia) D) as (vs & F2 & _). replace (n - (n - k)) with k in F2 by lia.
  assert (I : In s (l ++ [s])) by (apply in_or_app; right; now left).
  clear - F2 I. induction F2 as [|v x vs l0 (bs & -> & B & _) F2 IH]; [destruct I|]. destruct I as [<-|I]; [|auto].
  exists bs. split; [reflexivity|]. eapply state_input; eauto.
Qed.

Lemma first_ex l : (exists x, In x l /\ e_sim e x = SNotEquivalent) -> exists N x, first_refuting e l N x.
Proof.
  induction l as [|y l IH]; intros (x & I & E); [destruct I|]. destruct (e_sim e y) eqn:Ey.
  3:{ exists 1%N, y. exact (first_at _ _ _ _ [] l eq_refl (Forall_nil _) Ey eq_refl). }
  all: destruct I as [->|I]; [congruence|]; destruct (IH (ex_intro _ x (conj I E))) as (N & z & [l1 l2 -> F1 R ->]);
    eexists; exists z; refine (first_at _ _ _ _ (y :: l1) l2 eq_refl _ R eq_refl); constructor; auto; unfold nonref; congruence.
Qed.

(** the result of the run *)
Lemma exhaustive_run fuel pf m : k <= 63 -> g_used (m_gen m) = [] ->
  choose_flow e (m_cfg m) = FSequential -> never_fires e (m_cfg m) -> no_exceptions e (m_cfg m) -> only_simulations (m_cfg m) ->
  maxSims (sim (m_cfg m)) = (2 ^ N.of_nat k)%N -> r_performed (m_res m) = 0%N -> (2 ^ N.of_nat k < N.of_nat fuel)%N ->
  exists m', run fuel pf e m = Returned m' /\
    ((r_eq (m_res m') = NotEquivalent /\ exists l, refuting_input n k e l) \/
     (r_eq (m_res m') = ProbablyEquivalent /\ r_performed (m_res m') = (2 ^ N.of_nat k)%N /\ forall l, ~ refuting_input n k e l)).
Proof.
  intros K U H1 H2 H3 H4 H5 H6 H7. pose proof (primary_le c1) as P. assert (E : n - (n - k) = k) by lia.
  destruct (all_states word unif (e_ndebug e) n (n - k) (m_gen m) F IR ltac:(lia) ltac:(lia) U) as (l & g' & S & L & AL).
  rewrite E in *. pose proof (draws_of _ _ _ S) as D.
  destruct (stimuli_values word unif (e_ndebug e) n (n - k) (m_gen m) l g' IR ltac:(lia) S) as (vs & F2 & _). rewrite E in F2.
  assert (IN : forall x, In x l -> exists bs, x = SBits bs /\ basis_input n k bs).
  { intros x I. clear - F2 I. induction F2 as [|v y vs l0 (bs & -> & B & _) F2 IH]; [destruct I|]. destruct I as [<-|I]; [|auto].
    exists bs. split; [reflexivity|]. eapply state_input; eauto. }
  assert (ALL : forall bs, basis_input n k bs -> In (SBits bs) l).
  { intros bs B. destruct (input_state n k bs ltac:(lia) B) as (v & Lv & Bv). eapply AL; eauto. }
  assert (HL : length l < fuel) by lia. destruct H4 as (HS & H4).
  destruct (Exists_dec (fun x => e_sim e x = SNotEquivalent) l) as [X|X].
  { intros x. destruct (e_sim e x); [right|right|left|..]; congruence. }
  - apply Exists_exists in X as (x & I & R). destruct (first_ex l) as (j & y & FR); [now exists x|].
    destruct (verdict_refuted fuel pf e m l g' j y H1 H2 H3 H6 D (eq_trans L (eq_sym H5)) HL HS FR) as (m' & Rm & ER).
    exists m'. split; [exact Rm|]. left. rewrite ER. split; [reflexivity|].
    destruct (IN x I) as (bs & -> & B). exists bs. split; auto.
  - assert (NX : forall j y, ~ first_refuting e l j y).
    { intros j y [l1 l2 E1 _ R _]. apply X. apply Exists_exists. exists y. split; [rewrite E1; apply in_or_app; right; now left|exact R]. }
    destruct (verdict_agree fuel pf e m l g' H1 H2 H3 H6 D (eq_trans L (eq_sym H5)) HL (fun _ => NX)) as (m' & Rm & ER).
    { intros _ E0. rewrite E0 in L. cbn in L. pose proof (N.pow_nonzero 2 (N.of_nat k)). lia. }
    exists m'. split; [exact Rm|]. right. rewrite HS in ER. rewrite ER. cbn [r_eq r_performed].
    assert (NZ : N.eqb (maxSims (sim (m_cfg m))) 0 = false).
    { rewrite H5. apply N.eqb_neq. apply N.pow_nonzero. discriminate. }
    rewrite NZ. split; [|split; [exact H5|]].
    + cbn [negb]. apply table_sims. split; auto.
    + intros bs (B & R). apply X. apply Exists_exists. exists (SBits bs). split; auto.
Qed.

(** the result of a parallel run without timeout, in any schedule in which it returns *)
Lemma exhaustive_parallel c g pp x : k <= 63 -> g_used g = [] -> only_simulations c ->
  maxSims (sim c) = (2 ^ N.of_nat k)%N -> hasTimeout c = false -> par_returned e c g pp x ->
  (r_eq (p_res x) = NotEquivalent /\ exists l, refuting_input n k e l) \/
  (r_eq (p_res x) = ProbablyEquivalent /\ r_performed (p_res x) = (2 ^ N.of_nat k)%N /\ forall l, ~ refuting_input n k e l).
Proof.
  intros K U (R & A1 & A2 & A3) M T P. pose proof (primary_le c1) as PL.
  assert (SS : sane_sims c).
  { unfold sane_sims. rewrite M. pose proof (N.pow_le_mono_r 2 (N.of_nat k) 63 ltac:(lia) ltac:(lia)) as Q.
    change (2 ^ 63)%N with 9223372036854775808%N in Q. change (2 ^ 64)%N with 18446744073709551616%N. lia. }
  assert (ET : enough_threads e c) by (unfold enough_threads; rewrite A1, A2, A3; cbn; lia).
  assert (OS : onlySimulationCheckerConfigured c = true) by (unfold onlySimulationCheckerConfigured; rewrite R, A1, A2, A3; reflexivity).
  assert (PP : (0 < maxSims (sim c))%N) by (rewrite M; pose proof (N.pow_nonzero 2 (N.of_nat k)); lia).
  assert (D : r_eq (p_res x) = NotEquivalent \/ r_eq (p_res x) <> NotEquivalent) by (destruct (r_eq (p_res x)); auto; right; discriminate).
  destruct D as [NE|NE].
  - left. split; [exact NE|]. destruct (pf_source e c g pp x SS ET P) as (_ & S & _). destruct (S NE) as [F1|F1].
    + destruct F1 as [(F1 & _)|(F1 & _)]; congruence.
    + destruct F1 as (_ & s & DR & ER). destruct (drawn_input g s K DR) as (l & -> & B). exists l. split; auto.
  - destruct (pf_only_sim e c g pp x SS ET P OS PP T NE) as (PE & Q). right. split; [exact Q|]. split; [congruence|].
    destruct (pf_pe e c g pp x SS ET P Q) as (l & used & rest & DR & PM & _ & LU & NR).
    apply draws_back in DR. assert (EK : n - (n - k) = k) by lia.
    destruct (stimuli_values word unif (e_ndebug e) n (n - k) g l _ IR ltac:(lia) DR) as (vs & F2 & ND & _). rewrite EK in F2.
    assert (B : forall v, In v vs -> (v < 2 ^ N.of_nat k)%N).
    { intros v I. clear - F2 I. induction F2 as [|? ? ? ? (bs & _ & _ & Q)]; [destruct I|]; destruct I as [->|I]; auto. }
    assert (LE : (N.of_nat (length l) <= 2 ^ N.of_nat k)%N).
    { rewrite <- EK. eapply stimuli_count; eauto. lia. }
    assert (LL : length l = length used + length rest) by (rewrite (Permutation_length PM), app_length; reflexivity).
    assert (R0 : rest = []) by (destruct rest; [reflexivity|cbn in LL; lia]). subst rest. rewrite app_nil_r in PM.
    assert (ALL : forall v, (v < 2 ^ N.of_nat k)%N -> In v vs).
    { apply full_iff; auto. rewrite (Forall2_len _ _ _ F2). cbn in LL. lia. }
    intros bs (B1 & ER). destruct (input_state n k bs ltac:(lia) B1) as (v & Lv & Bv).
    assert (I : In (SBits bs) l).
    { specialize (ALL v Lv). clear - F2 ALL Bv. induction F2 as [|w s vs l (bs' & -> & B' & _) F2 IH]; [destruct ALL|]. destruct ALL as [->|I].
      - left. f_equal. eapply basis_state_fun; eauto.
      - right. auto. }
    apply (Permutation_in _ PM) in I. rewrite Forall_forall in NR. exact (NR _ I ER).
Qed.

(** any number of simulations, none of which refutes *)
Lemma agreeing_run fuel pf m l g' : draws e (m_gen m) l g' -> (forall s, drawn_from e (m_gen m) s -> e_sim e s <> SNotEquivalent) ->
  choose_flow e (m_cfg m) = FSequential -> never_fires e (m_cfg m) -> no_exceptions e (m_cfg m) -> only_simulations (m_cfg m) ->
  r_performed (m_res m) = 0%N -> N.of_nat (length l) = maxSims (sim (m_cfg m)) -> l <> [] -> length l < fuel ->
  exists m', run fuel pf e m = Returned m' /\ r_eq (m_res m') = ProbablyEquivalent.
Proof.
  intros D X H1 H2 H3 H4 H6 L L0 HL. destruct H4 as (HS & H4).
  assert (NX : forall j y, ~ first_refuting e l j y).
  { intros j y [l1 l2 -> _ R _]. apply (X y); [|exact R]. clear - D.
    revert D. generalize (m_gen m) as g. induction l1 as [|z l1 IH]; intros g D; cbn in D; inversion D as [|? ? g1 ? ? E D']; subst.
    - exists [], g1. cbn. econstructor; [exact E|constructor].
    - destruct (IH g1 D') as (l3 & g2 & D3). exists (z :: l3), g2. cbn. econstructor; eauto. }
  destruct (verdict_agree fuel pf e m l g' H1 H2 H3 H6 D L HL (fun _ => NX)) as (m' & Rm & ER).
  { intros _ E0. contradiction. }
  exists m'. split; [exact Rm|]. rewrite HS in ER. rewrite ER. cbn [r_eq].
  assert (NZ : N.eqb (maxSims (sim (m_cfg m))) 0 = false).
  { rewrite <- L. apply N.eqb_neq. destruct l; [contradiction|]. cbn. lia. }
  rewrite NZ. apply table_sims. split; auto.
Qed.
End Run.

(** ** what the constructor leaves *)
Lemma constructor_asks (A : Type) (actsOn : A -> nat -> bool) (apply : pass -> circ A -> circ A) isEmpty isDynamic varfree nd cfg (c1 c2 c1' c2' : circ A) (s : settings) :
  construct actsOn apply isEmpty isDynamic varfree nd cfg c1 c2 = PVal (c1', c2', s) ->
  only_simulations cfg -> stateTyp (sim cfg) = ComputationalBasis -> (2 ^ N.of_nat (primary c1') <= maxSims (sim cfg))%N ->
  ssrbool.and3 (primary c1' <= 63) (only_simulations (constructed cfg s)) (maxSims (sim (constructed cfg s)) = (2 ^ N.of_nat (primary c1'))%N).
Proof.
  intros E (R & HA & HC & HZ) T M. unfold construct in E.
  destruct (optimise _ _ _ _ _ _ _) as [[o1 o2]| | |]; try discriminate. cbn [pbind fst snd] in E.
  destruct (prepare _ _ _ _) as [[d1 d2]| | |]; try discriminate. cbn [pbind fst snd] in E.
  unfold fallback in E. rewrite HA, HC in E. cbn [andb] in E. rewrite R, T in E. unfold clamp_sims in E.
  destruct (N.leb 64 (N.of_nat (primary d1))) eqn:B; [discriminate|]. apply N.leb_gt in B.
  assert (L : N.leb (N.of_nat (primary d1)) 63 = true) by (apply N.leb_le; lia). rewrite L in E. cbn [andb] in E.
  rewrite N.shiftl_1_l in E. injection E as <- <- <-. split.
  - lia.
  - repeat split; cbn; auto.
  - cbn [constructed sim maxSims s_maxSims]. destruct (N.ltb _ _) eqn:B2; [reflexivity|]. apply N.ltb_ge in B2. lia.
Qed.
