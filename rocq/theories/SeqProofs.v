(** Proofs about the sequential and symbolic flows. *)
From Coq Require Import String List Bool NArith QArith Arith Lia.
From Verif Require Import Criterion Config EnumSpec EnumProofs SeqFlow SeqSpec.
Import ListNotations.
Local Open Scope list_scope.

Section Proofs.
Context {Stim Gen : Type}.
Notation env := (env Stim Gen).
Notation mgr := (mgr Stim Gen).

Implicit Types (e : env) (m : mgr) (c : config) (r : results Stim) (g : Gen).

Lemma draws_app e g1 l1 g2 l2 g3 : draws e g1 l1 g2 -> draws e g2 l2 g3 -> draws e g1 (l1 ++ l2) g3.
Proof. induction 1; cbn; [auto|]. intros. econstructor; eauto. Qed.

Lemma fired_mono e c t t' : (t <= t')%nat -> fired e c t = true -> fired e c t' = true.
Proof.
  unfold fired. intros H. destruct (hasTimeout c); cbn; [|auto].
  destruct (e_fire e); [|auto]. rewrite !Nat.leb_le. lia.
Qed.
Lemma fired_timeout e c t : fired e c t = true -> hasTimeout c = true.
Proof. unfold fired. now intros ?%andb_true_iff. Qed.
Lemma interrupted_fired e c t : interrupted e c t = true -> fired e c t = true.
Proof. unfold interrupted. now intros ?%andb_true_iff. Qed.

Lemma scrit_cases v : scrit v <> NoInformation.
Proof. destruct v; discriminate. Qed.
Lemma scrit_ne v : scrit v = NotEquivalent <-> v = SNotEquivalent.
Proof. destruct v; split; intro H; try reflexivity; discriminate. Qed.
Lemma mcrit_ni v : mcrit v <> NoInformation.
Proof. destruct v; discriminate. Qed.

(** full specification of a normal exit of the simulation loop *)
Lemma simLoop_done fuel : forall e c t q s r g t' q' s' r' g',
  q <> NotEquivalent -> r_eq r <> NotEquivalent ->
  simLoop fuel e c t q s r g = LDone t' q' s' r' g' ->
  exists l, draws e g l g' /\
    r_started r' = (r_started r + N.of_nat (length l))%N /\
    r_performed r' = (r_performed r + N.of_nat (length l))%N /\
    r_cexIn r' = r_cexIn r /\ r_cexOut r' = r_cexOut r /\ r_preproc r' = r_preproc r /\
    (t <= t')%nat /\
    ((r_performed r <= maxSims (sim c))%N -> (r_performed r' <= maxSims (sim c))%N) /\
    (r_eq r' = NotEquivalent \/ simulationsFinished c r' = true \/ fired e c t' = true) /\
    ((l = [] /\ r_eq r' = r_eq r) \/
     (exists l0 x, l = l0 ++ [x] /\ r_eq r' = NotEquivalent /\ e_sim e x = SNotEquivalent /\
                   s' = Some x /\ Forall (nonref e) l0) \/
     (exists l0 x, l = l0 ++ [x] /\ r_eq r' = ProbablyEquivalent /\
                   Forall (nonref e) l0 /\
                   (nonref e x \/ (fired e c t' = true /\ (q = NoInformation -> l0 <> []))))).
Proof.
  induction fuel as [|fuel IH]; intros e c t q s r g t' q' s' r' g' Hq Hr H; cbn [simLoop] in H; [discriminate|].
  destruct (simulationsFinished c r) eqn:Hfin.
  { injection H; intros; subst. exists []. cbn. rewrite !N.add_0_r.
    repeat split; auto. constructor. }
  destruct (fired e c t) eqn:Hf.
  { injection H; intros; subst. exists []. cbn. rewrite !N.add_0_r.
    repeat split; auto; [constructor|]. right; right; apply fired_mono with t; auto. }
  destruct (e_gen e g) as [[st g1]|] eqn:Hg; [|discriminate].
  set (q1 := if interrupted e c (S t) then q else scrit (e_sim e st)) in H.
  set (r2 := set_counts _ _ _) in H.
  assert (Hlt : (r_performed r <= maxSims (sim c))%N -> (r_performed r + 1 <= maxSims (sim c))%N).
  { unfold simulationsFinished in Hfin. apply N.eqb_neq in Hfin. lia. }
  assert (Hstep : q1 <> NotEquivalent -> q1 <> NoInformation ->
     simLoop fuel e c (S (S t)) q1 (Some st) (set_eq ProbablyEquivalent r2) g1 = LDone t' q' s' r' g' ->
     exists l, draws e g l g' /\
    r_started r' = (r_started r + N.of_nat (length l))%N /\
    r_performed r' = (r_performed r + N.of_nat (length l))%N /\
    r_cexIn r' = r_cexIn r /\ r_cexOut r' = r_cexOut r /\ r_preproc r' = r_preproc r /\
    (t <= t')%nat /\
    ((r_performed r <= maxSims (sim c))%N -> (r_performed r' <= maxSims (sim c))%N) /\
    (r_eq r' = NotEquivalent \/ simulationsFinished c r' = true \/ fired e c t' = true) /\
    ((l = [] /\ r_eq r' = r_eq r) \/
     (exists l0 x, l = l0 ++ [x] /\ r_eq r' = NotEquivalent /\ e_sim e x = SNotEquivalent /\
                   s' = Some x /\ Forall (nonref e) l0) \/
     (exists l0 x, l = l0 ++ [x] /\ r_eq r' = ProbablyEquivalent /\
                   Forall (nonref e) l0 /\
                   (nonref e x \/ (fired e c t' = true /\ (q = NoInformation -> l0 <> [])))))).
  { intros Hne Hni Hl. 
    assert (Hst : nonref e st \/ (interrupted e c (S t) = true /\ q1 = q)).
    { unfold q1 in *. destruct (interrupted e c (S t)) eqn:Hi; [now right|left].
      intro A. rewrite A in Hne. now apply Hne. }
    assert (Hfalse : interrupted e c (S t) = true -> exists t'' , t' = t'' /\ simLoop fuel e c (S (S t)) q1 (Some st) (set_eq ProbablyEquivalent r2) g1 = LDone t' q' s' r' g' /\ g' = g1 /\ r' = set_eq ProbablyEquivalent r2 /\ fired e c (S (S t)) = true).
    { intros Hi. exists t'. split; [reflexivity|]. split; [assumption|].
      apply interrupted_fired in Hi. apply (fired_mono e c (S t) (S (S t))) in Hi; [|lia].
      destruct fuel as [|fuel']; [discriminate|]. cbn [simLoop] in Hl.
      destruct (simulationsFinished c (set_eq ProbablyEquivalent r2)).
      - injection Hl; intros; subst. auto.
      - rewrite Hi in Hl. injection Hl; intros; subst. auto. }
    apply IH in Hl; [|assumption|discriminate].
    destruct Hl as (l & Hd & H1 & H2 & H3 & H4 & H5 & H6 & H7 & H8 & H9).
    exists (st :: l). cbn [r_started r_performed r_cexIn r_cexOut r_preproc r2 set_counts set_eq length] in *.
    assert (Hcnt : N.of_nat (S (length l)) = (1 + N.of_nat (length l))%N) by lia.
    rewrite Hcnt.
    repeat split; auto; try lia.
    - econstructor; eauto.
    - destruct H9 as [[-> E]|[(l0 & x & -> & E & Ex & Es & Ef)|(l0 & x & -> & E & Ef & Ex)]].
      + right; right. exists [], st. repeat split; auto.
        destruct Hst as [Hs|[Hi Hq1]]; [now left|]. right.
        destruct (Hfalse Hi) as (t'' & -> & Hl2 & _ & _ & Hf2).
        split; [apply fired_mono with (S (S t)); [lia|auto]|].
        intros ->. congruence.
      + destruct Hst as [Hs|[Hi Hq1]].
        * right; left. exists (st :: l0), x. repeat split; auto.
        * exfalso. destruct (Hfalse Hi) as (t'' & -> & Hl2 & _ & -> & _). discriminate E.
      + destruct Hst as [Hs|[Hi Hq1]].
        * right; right. exists (st :: l0), x. repeat split; auto.
          destruct Ex as [Ex|[Ex Hn]]; [now left|right]. split; [auto|]. discriminate.
        * exfalso. destruct (Hfalse Hi) as (t'' & -> & Hl2 & _ & -> & _).
          cbn [r_performed set_eq] in H2. rewrite app_length in H2. cbn in H2. lia. }
  destruct q1 eqn:Hq1; try (apply Hstep; [discriminate|discriminate|assumption]); [|discriminate].
  injection H; intros; subst t' q' s' r' g'.
  exists [st]. cbn [r_started r_performed r_cexIn r_cexOut r_preproc r2 set_counts set_eq length r_eq].
  change (N.of_nat 1) with 1%N.
  repeat split; auto; try lia.
  + econstructor; eauto. constructor.
  + right; left. exists [], st. repeat split; auto.
    unfold q1 in Hq1. destruct (interrupted e c (S t)); [congruence|]. now apply scrit_ne.
Qed.

(** the early return happens only when the very first simulation is interrupted *)
Lemma simLoop_noinfo fuel : forall e c t q s r g q' s' r' g',
  simLoop fuel e c t q s r g = LNoInfo q' s' r' g' ->
  q = NoInformation /\ simulationsFinished c r = false /\ fired e c t = false /\
  interrupted e c (S t) = true /\ exists st g1, e_gen e g = Some (st, g1).
Proof.
  induction fuel as [|fuel IH]; intros e c t q s r g q' s' r' g' H; cbn [simLoop] in H; [discriminate|].
  destruct (simulationsFinished c r) eqn:Hfin; [discriminate|].
  destruct (fired e c t) eqn:Hf; [discriminate|].
  destruct (e_gen e g) as [[st g1]|] eqn:Hg; [|discriminate].
  set (q1 := if interrupted e c (S t) then q else scrit (e_sim e st)) in H.
  assert (Hrec : q1 <> NoInformation ->
     simLoop fuel e c (S (S t)) q1 (Some st)
        (set_eq ProbablyEquivalent (set_counts (r_started (set_counts (r_started r + 1) (r_performed r) r))
           (r_performed (set_counts (r_started r + 1) (r_performed r) r) + 1) (set_counts (r_started r + 1) (r_performed r) r))) g1
       = LNoInfo q' s' r' g' -> False).
  { intros Hne Hl. apply IH in Hl. tauto. }
  destruct q1 eqn:Hq1; try (exfalso; apply Hrec; [discriminate|assumption]); [discriminate|].
  unfold q1 in Hq1. destruct (interrupted e c (S t)) eqn:Hi.
  - repeat split; eauto.
  - exfalso. now apply (scrit_cases (e_sim e st)).
Qed.

Lemma simLoop_noinfo_iff fuel e c t s r g :
  (exists q' s' r' g', simLoop (S fuel) e c t NoInformation s r g = LNoInfo q' s' r' g') <->
  simulationsFinished c r = false /\ fired e c t = false /\
  interrupted e c (S t) = true /\ e_gen e g <> None.
Proof.
  split.
  - intros (q' & s' & r' & g' & H). apply simLoop_noinfo in H.
    destruct H as (_ & H1 & H2 & H3 & st & g1 & H4). repeat split; auto. congruence.
  - intros (H1 & H2 & H3 & H4). cbn [simLoop]. rewrite H1, H2.
    destruct (e_gen e g) as [[st g1]|]; [|congruence]. rewrite H3. eauto 6.
Qed.

(** termination of the loop *)
Lemma gen_supplies_step e g st g1 n : gen_supplies e g (n + 1) -> e_gen e g = Some (st, g1) -> gen_supplies e g1 n.
Proof. intros H E l g' Hd HL. apply (H (st :: l)); [econstructor; eauto|]. cbn [length]. lia. Qed.
Lemma gen_supplies_le e g n n' : gen_supplies e g n -> (n' <= n)%N -> gen_supplies e g n'.
Proof. intros H L l g' Hd HL. apply (H l); [exact Hd|lia]. Qed.

Lemma simLoop_terminates fuel : forall e c t q s r g,
  gen_supplies e g (maxSims (sim c) - r_performed r) -> (r_performed r <= maxSims (sim c))%N ->
  (maxSims (sim c) - r_performed r < N.of_nat fuel)%N ->
  simLoop fuel e c t q s r g <> LDiverged.
Proof.
  induction fuel as [|fuel IH]; intros e c t q s r g Hg Hle Hlt; [lia|]. cbn [simLoop].
  destruct (simulationsFinished c r) eqn:Hfin; [discriminate|].
  destruct (fired e c t); [discriminate|].
  unfold simulationsFinished in Hfin. apply N.eqb_neq in Hfin.
  destruct (e_gen e g) as [[st g1]|] eqn:Hgen; [|exfalso; apply (Hg [] g (draws_nil _ _)); [cbn [length]; lia|exact Hgen]].
  assert (G1 : gen_supplies e g1 (maxSims (sim c) - (r_performed r + 1))).
  { apply (gen_supplies_step e g st); [|exact Hgen]. eapply gen_supplies_le; [exact Hg|]. lia. }
  destruct (if interrupted e c (S t) then q else scrit (e_sim e st)); try discriminate;
  (apply IH; [assumption| cbn; lia | cbn; lia]).
Qed.

Lemma simLoop_diverges fuel : forall e c t q s r g,
  (forall t, fired e c t = false) -> (forall s, e_sim e s <> SNotEquivalent) ->
  (maxSims (sim c) < r_performed r)%N ->
  simLoop fuel e c t q s r g = LDiverged.
Proof.
  induction fuel as [|fuel IH]; intros e c t q s r g Hf Hs Hlt; [reflexivity|]. cbn [simLoop].
  assert (simulationsFinished c r = false) as -> by (unfold simulationsFinished; apply N.eqb_neq; lia).
  rewrite Hf. destruct (e_gen e g) as [[st g1]|]; [|reflexivity].
  assert (interrupted e c (S t) = false) as -> by (unfold interrupted; now rewrite Hf).
  pose proof (Hs st). destruct (e_sim e st); try congruence; cbn [scrit]; (apply IH; auto; cbn; lia).
Qed.

(** *** the phases *)
Lemma seqSim_inl fuel e c s s' :
  r_eq (s_res s) <> NotEquivalent ->
  seqSim fuel e c s = inl (Returned s') ->
  (runSimulationChecker (exec c) = false /\ s' = s) \/
  (runSimulationChecker (exec c) = true /\ exists t q stm r,
     simLoop fuel e c (s_t s) NoInformation None (s_res s) (s_gen s) = LDone t q stm r (s_gen s') /\
     s_t s' = t /\ s_chk s' = s_chk s ++ [mkChecker KSim q stm] /\
     s_done s' = s_done s || criterion_eqb (r_eq r) NotEquivalent ||
               (onlySimulationCheckerConfigured c && simulationsFinished c r) /\
     s_res s' = match r_eq r with
        | NotEquivalent =>
            set_cex (if storeCEXinput (sim c) then stm else r_cexIn r)
                    (if storeCEXoutput (sim c) then stm else r_cexOut r) r
        | _ => r end).
Proof.
  intros Hne. unfold seqSim.
  destruct (runSimulationChecker (exec c)) eqn:E; cbn [negb];
    [|intros H; injection H; intros; subst; left; now split].
  destruct (ctor_throws e c KSim); [discriminate|].
  destruct (simLoop fuel e c (s_t s) NoInformation None (s_res s) (s_gen s)) as [t q stm r g|q stm r g|] eqn:Hl;
    try discriminate.
  intros H. injection H; intros; subst s'. right. split; [reflexivity|].
  exists t, q, stm, r. cbn [s_gen s_t s_chk s_done s_res]. repeat split; auto.
Qed.

Lemma seqExact_inl k en v th e c s s' :
  seqExact k en v th e c s = inl (Returned s') ->
  s_gen s' = s_gen s /\ (s_t s <= s_t s')%nat /\
  r_started (s_res s') = r_started (s_res s) /\ r_performed (s_res s') = r_performed (s_res s) /\
  r_cexIn (s_res s') = r_cexIn (s_res s) /\ r_cexOut (s_res s') = r_cexOut (s_res s) /\
  ((s_res s' = s_res s /\ s_done s' = s_done s /\
    (en = true -> s_done s = true \/ fired e c (s_t s') = true)) \/
   (en = true /\ th = false /\ ctor_throws e c k = false /\ s_done s = false /\
    s_done s' = true /\ r_eq (s_res s') = mcrit v)).
Proof.
  unfold seqExact. destruct en; cbn [negb];
    [|intros H; injection H; intros; subst; repeat split; auto; left; repeat split; auto; discriminate].
  unfold reads_done. destruct (s_done s) eqn:Hd; cbn [orb].
  { intros H; injection H; intros; subst; cbn [tick s_gen s_t s_res s_done]. repeat split; auto. }
  destruct (fired e c (s_t s)) eqn:Hf1.
  { intros H; injection H; intros; subst; cbn [tick s_gen s_t s_res s_done]. repeat split; auto.
    left; repeat split; auto. right. apply fired_mono with (s_t s); auto. }
  destruct (ctor_throws e c k); [discriminate|].
  cbn [tick s_done s_t orb]. rewrite Hd. cbn [orb].
  destruct (fired e c (S (s_t s))) eqn:Hf2.
  { intros H; injection H; intros; subst; cbn [tick add_checker s_gen s_t s_res s_done]. repeat split; auto.
    left; repeat split; auto. right. apply fired_mono with (S (s_t s)); auto. }
  destruct th; [discriminate|].
  destruct (interrupted e c (S (S (s_t s)))) eqn:Hi.
  { intros H; injection H; intros; subst; cbn [tick add_checker s_gen s_t s_res s_done]. repeat split; auto.
    left; repeat split; auto. right.
    apply fired_mono with (S (S (s_t s))); [auto|]. now apply interrupted_fired. }
  destruct v; cbn [mcrit]; intros H; injection H; intros; subst;
    cbn [tick add_checker set_done with_res set_eq s_gen s_t s_res s_done r_started r_performed r_cexIn r_cexOut r_eq];
    repeat split; auto; right; repeat split; auto.
Qed.

Lemma seqZX_inl e c s s' :
  seqZX e c s = inl (Returned s') ->
  s_gen s' = s_gen s /\
  r_started (s_res s') = r_started (s_res s) /\ r_performed (s_res s') = r_performed (s_res s) /\
  r_cexIn (s_res s') = r_cexIn (s_res s) /\ r_cexOut (s_res s') = r_cexOut (s_res s) /\
  ((r_eq (s_res s') = r_eq (s_res s)) \/
   (s_done s = false /\ r_eq (s_res s') = NoInformation) \/
   (s_done s = false /\ from_zx_checker e c (r_eq (s_res s')))).
Proof.
  unfold seqZX, from_zx_checker. destruct (runZXChecker (exec c)); cbn [negb];
    [|intros H; injection H; intros; subst; repeat split; auto].
  unfold reads_done. destruct (s_done s) eqn:Hd; cbn [orb].
  { intros H; injection H; intros; subst; cbn; repeat split; auto. }
  destruct (fired e c (s_t s)).
  { intros H; injection H; intros; subst; cbn; repeat split; auto. }
  destruct (e_transformable e).
  2:{ destruct (onlyZXCheckerConfigured c); intros H; injection H; intros; subst; cbn; repeat split; auto. }
  destruct (e_zx_perm_ok e); cbn [negb]; [|discriminate].
  cbn [tick s_done s_t orb]. rewrite Hd; cbn [orb].
  destruct (fired e c (S (s_t s))).
  { intros H; injection H; intros; subst; cbn; repeat split; auto. }
  destruct (interrupted e c (S (S (s_t s)))).
  { destruct (_ && _ && _); [discriminate|]. intros H; injection H; intros; subst; cbn; repeat split; auto. }
  destruct (zcrit (e_ancilla e) (e_zx e)) eqn:Hz.
  all: cbn [tick add_checker set_done with_res set_eq s_gen s_t s_res s_done r_started r_performed r_cexIn r_cexOut r_eq].
  all: repeat match goal with |- context [if ?b then _ else _] => destruct b eqn:? end.
  all: intros H; try discriminate; injection H; intros; subst;
    cbn [tick add_checker set_done with_res set_eq s_gen s_t s_res s_done r_started r_performed r_cexIn r_cexOut r_eq];
    repeat split; auto 10.
Qed.

(** decomposition of a normal return of checkSequential *)
Lemma checkSequential_phases fuel e m m' :
  checkSequential fuel e m = Returned m' ->
  let c := m_cfg m in
  let s0 := mkSt 0 (m_done m) (m_checkers m) (m_res m) (m_gen m) in
  (exists s1 s2 s3 s4,
     seqSim fuel e c s0 = inl (Returned s1) /\
     seqExact KAlt (runAlternatingChecker (exec c)) (e_alt e) (negb (e_canHandle e)) e c s1 = inl (Returned s2) /\
     seqExact KCon (runConstructionChecker (exec c)) (e_con e) false e c s2 = inl (Returned s3) /\
     seqZX e c s3 = inl (Returned s4) /\
     m_res m' = s_res s4 /\ m_gen m' = s_gen s4 /\ m_cfg m' = c /\ m_done m' = s_done s4 /\ m_checkers m' = s_chk s4).
Proof.
  intros H. cbn zeta. unfold checkSequential in H.
  destruct (seqSim fuel e (m_cfg m) _) as [o|o] eqn:E1.
  2:{ exfalso. destruct o; cbn in H; try discriminate.
      unfold seqSim in E1. destruct (runSimulationChecker _); [|discriminate].
      cbn [negb] in E1. destruct (ctor_throws _ _ _).
      { unfold leave_by_exception in E1. destruct (hasTimeout _); discriminate. }
      destruct (simLoop _ _ _ _ _ _ _ _) as [| |] eqn:El; try discriminate.
      apply simLoop_noinfo in El. destruct El as (_ & _ & _ & Hi & _).
      apply interrupted_fired, fired_timeout in Hi. rewrite Hi in E1. discriminate. }
  destruct o as [s1| | | |]; cbn [bind finish_flow] in H; try discriminate.
  destruct (seqExact KAlt _ _ _ e _ s1) as [o|o] eqn:E2.
  2:{ exfalso. destruct o; cbn in H; try discriminate.
      unfold seqExact in E2. unfold leave_by_exception in E2.
      repeat match type of E2 with context [if ?b then _ else _] => destruct b end; try discriminate;
      destruct (mcrit _); discriminate. }
  destruct o as [s2| | | |]; cbn [bind finish_flow] in H; try discriminate.
  destruct (seqExact KCon _ _ _ e _ s2) as [o|o] eqn:E3.
  2:{ exfalso. destruct o; cbn in H; try discriminate.
      unfold seqExact in E3. unfold leave_by_exception in E3.
      repeat match type of E3 with context [if ?b then _ else _] => destruct b end; try discriminate;
      destruct (mcrit _); discriminate. }
  destruct o as [s3| | | |]; cbn [bind finish_flow] in H; try discriminate.
  destruct (seqZX e _ s3) as [o|o] eqn:E4.
  2:{ exfalso. destruct o; cbn in H; try discriminate.
      unfold seqZX in E4.
      repeat match type of E4 with context [if ?b then _ else _] => destruct b end; try discriminate;
      destruct (zcrit _ _); repeat match type of E4 with context [if ?b then _ else _] => destruct b end; discriminate. }
  destruct o as [s4| | | |]; cbn [bind finish_flow] in H; try discriminate.
  injection H as <-. exists s1, s2, s3, s4. repeat split; auto.
Qed.

End Proofs.
