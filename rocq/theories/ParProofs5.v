(** Consequences of the invariants: verdicts, counters, counterexamples of the parallel flow. *)
From Coq Require Import String List Bool NArith QArith Arith Lia Permutation.
From Verif Require Import Criterion Config SeqFlow SeqSpec SeqProofs ParFlow ParSpec ParProofs ParProofs2 ParProofs3 ParProofs4.
Import ListNotations.
Local Open Scope list_scope.

Section Proofs.
Context {Stim Gen : Type}.
Notation env := (env Stim Gen).
Notation pst := (pst Stim Gen).
Notation slot := (slot Stim).
Notation entry := (kind * criterion * option Stim)%type.
Implicit Types (e : env) (s : pst) (c : config) (x : slot) (g : Gen).

Lemma draws_in e g l g' st : draws e g l g' -> In st l -> drawn_from e g st.
Proof.
  intros H. revert st. induction H as [|g st g1 l g2 Hg Hd IH]; intros y Hin; [contradiction|].
  destruct Hin as [->|Hin].
  - exists [], g1. cbn. econstructor; [exact Hg|constructor].
  - destruct (IH _ Hin) as (l0 & g3 & H3). exists (st :: l0), g3. cbn. econstructor; eauto.
Qed.

Lemma draws_prefix e g l1 g1 l2 g2 : draws e g l1 g1 -> draws e g l2 g2 -> (length l1 <= length l2)%nat ->
  exists l3, l2 = l1 ++ l3.
Proof.
  intros H. revert l2 g2. induction H as [g|g st g1 l g' Hg Hd IH]; intros l2 g2 H2 HL; [exists l2; reflexivity|].
  destruct H2 as [g|g st2 g3 l2 g2 Hg2 Hd2]; [cbn in HL; lia|].
  rewrite Hg in Hg2. injection Hg2 as <- <-. destruct (IH _ _ Hd2 ltac:(cbn in HL; lia)) as (l3 & ->). exists l3. reflexivity.
Qed.

Lemma scrit_ne v : scrit v = NotEquivalent <-> v = SNotEquivalent.
Proof. destruct v; cbn; split; congruence. Qed.
Lemma scrit_cases v : scrit v = Equivalent \/ scrit v = EquivalentUpToPhase \/ scrit v = NotEquivalent.
Proof. destruct v; cbn; auto. Qed.
Lemma mcrit_cases v : mcrit v = Equivalent \/ mcrit v = EquivalentUpToGlobalPhase \/ mcrit v = NotEquivalent.
Proof. destruct v; cbn; auto. Qed.

Lemma handle_sim_ok c (r : results Stim) q st : q = Equivalent \/ q = EquivalentUpToPhase ->
  handle c r KSim q st =
  (let r1 := set_counts (r_started r) (r_performed r + 1) r in
   let r2 := if is_ce (r_eq r1) NoInformation then set_eq ProbablyEquivalent r1 else r1 in
   if simulationsFinished c r2 then
     if onlySimulationCheckerConfigured c then Stop r2
     else if is_ce (r_eq r2) ProbablyNotEquivalent then Stop (set_eq NoInformation r2) else Continue r2
   else if N.ltb (r_started r2) (maxSims (sim c))
     then Restart (set_counts (r_started r2 + 1) (r_performed r2) r2) else Continue r2).
Proof. intros [-> | ->]; reflexivity. Qed.

Lemma nonref_of e st q : natural_entry e (KSim, q, st) -> q <> NotEquivalent ->
  exists y, st = Some y /\ nonref e y /\ (q = Equivalent \/ q = EquivalentUpToPhase).
Proof.
  intros (E & Hs & _) Hq. specialize (Hs eq_refl). destruct st as [y|]; [|congruence]. exists y. split; [reflexivity|].
  cbn in E. split.
  - intros HN. rewrite HN in E. cbn in E. congruence.
  - destruct (scrit_cases (e_sim e y)) as [H|[H|H]]; rewrite H in E; auto. contradiction.
Qed.

(** why the flow stopped *)
Inductive stop_reason e c (r0 : results Stim) (log0 : list entry) (r : results Stim) (log : list entry) : Prop :=
| SR_timeout : r = r0 -> log = log0 -> hasTimeout c = true -> stop_reason e c r0 log0 r log
| SR_zx_unsupported : r = r0 -> log = log0 -> r_eq r = NoInformation -> log0 = [] -> onlyZXCheckerConfigured c = true ->
    e_transformable e = false -> stop_reason e c r0 log0 r log
| SR_alt : log = (KAlt, mcrit (e_alt e), None) :: log0 -> e_canHandle e = true -> r = set_eq (mcrit (e_alt e)) r0 -> stop_reason e c r0 log0 r log
| SR_con : log = (KCon, mcrit (e_con e), None) :: log0 -> r = set_eq (mcrit (e_con e)) r0 -> stop_reason e c r0 log0 r log
| SR_zx : let q := zcrit (e_ancilla e) (e_zx e) in log = (KZX, q, None) :: log0 ->
    q = Equivalent \/ q = EquivalentUpToGlobalPhase -> r = set_eq q r0 -> stop_reason e c r0 log0 r log
| SR_zx_conflict : log = (KZX, ProbablyNotEquivalent, None) :: log0 -> zcrit (e_ancilla e) (e_zx e) = ProbablyNotEquivalent ->
    r_eq r0 = ProbablyEquivalent -> r_performed r0 = maxSims (sim c) -> r = set_eq NoInformation r0 -> stop_reason e c r0 log0 r log
| SR_zx_only : let q := zcrit (e_ancilla e) (e_zx e) in log = (KZX, q, None) :: log0 ->
    (q = ProbablyNotEquivalent /\ r_eq r0 = NoInformation /\ r = set_eq q r0) \/ (q = NoInformation /\ r = r0) ->
    onlyZXCheckerConfigured c = true -> stop_reason e c r0 log0 r log
| SR_refuted : forall y, log = (KSim, NotEquivalent, Some y) :: log0 -> e_sim e y = SNotEquivalent ->
    r = mkResults NotEquivalent (r_started r0) (r_performed r0 + 1)
          (if storeCEXinput (sim c) then Some y else None) (if storeCEXoutput (sim c) then Some y else None) (r_preproc r0) ->
    stop_reason e c r0 log0 r log
| SR_sims : forall y q, log = (KSim, q, Some y) :: log0 -> nonref e y -> q = Equivalent \/ q = EquivalentUpToPhase ->
    (r_performed r0 + 1)%N = maxSims (sim c) -> onlySimulationCheckerConfigured c = true ->
    r = set_eq (if is_ce (r_eq r0) NoInformation then ProbablyEquivalent else r_eq r0)
          (set_counts (r_started r0) (r_performed r0 + 1) r0) -> stop_reason e c r0 log0 r log
| SR_sims_conflict : forall y q, log = (KSim, q, Some y) :: log0 -> nonref e y -> q = Equivalent \/ q = EquivalentUpToPhase ->
    (r_performed r0 + 1)%N = maxSims (sim c) -> onlySimulationCheckerConfigured c = false ->
    r_eq r0 = ProbablyNotEquivalent ->
    r = set_eq NoInformation (set_counts (r_started r0) (r_performed r0 + 1) r0) -> stop_reason e c r0 log0 r log.

Lemma set_eq_same (r : results Stim) : set_eq (r_eq r) r = r.
Proof. destruct r; reflexivity. Qed.

Lemma stop_cases e c r0 log0 k q st r :
  EarlyRes c r0 log0 -> natural_entry e (k, q, st) -> (k <> KSim -> st = None) -> handle c r0 k q st = Stop r ->
  stop_reason e c r0 log0 r ((k, q, st) :: log0).
Proof.
  intros HE HN Hst H. destruct k.
  - destruct (criterion_eqb q NotEquivalent) eqn:EQ.
    + assert (q = NotEquivalent) as -> by (destruct q; try discriminate; reflexivity).
      destruct HN as (HN & Hs & _). specialize (Hs eq_refl). destruct st as [y|]; [|congruence].
      cbn in HN. symmetry in HN. apply scrit_ne in HN. eapply SR_refuted; [reflexivity|exact HN|].
      cbn in H. injection H as <-. destruct HE. unfold set_cex, set_counts, set_eq. cbn. rewrite er_cexIn, er_cexOut. reflexivity.
    + assert (Hne : q <> NotEquivalent) by (intros ->; discriminate).
      destruct (nonref_of _ _ _ HN Hne) as (y & -> & Hy & Hq). rewrite handle_sim_ok in H by assumption. cbn zeta in H.
      match type of H with context [simulationsFinished c ?t] => set (r2 := t) in * end.
      assert (P2 : r_performed r2 = (r_performed r0 + 1)%N) by (unfold r2; destruct (is_ce _ _); reflexivity).
      destruct (simulationsFinished c r2) eqn:SF.
      2:{ destruct (N.ltb _ _); discriminate. }
      unfold simulationsFinished in SF. apply N.eqb_eq in SF. rewrite P2 in SF.
      destruct (onlySimulationCheckerConfigured c) eqn:OS.
      * injection H as <-. eapply SR_sims; eauto. unfold r2. cbn [set_counts r_eq].
        destruct (is_ce (r_eq r0) NoInformation); [reflexivity|]. now rewrite <- (set_eq_same (set_counts _ _ r0)) at 1.
      * destruct (is_ce (r_eq r2) ProbablyNotEquivalent) eqn:EP; [|discriminate]. injection H as <-.
        eapply SR_sims_conflict; eauto.
        -- unfold r2 in EP. destruct (is_ce (r_eq (set_counts (r_started r0) (r_performed r0 + 1) r0)) NoInformation) eqn:EN; [discriminate|].
           cbn in EP. destruct (r_eq r0); try discriminate; reflexivity.
        -- unfold r2. destruct (is_ce _ _); reflexivity.
  - rewrite (Hst ltac:(discriminate)) in *. destruct HN as (-> & _ & Hh). cbn [natural] in *.
    apply SR_alt; [reflexivity|now apply Hh|]. destruct (mcrit_cases (e_alt e)) as [E|[E|E]]; rewrite E in *; injection H as <-; reflexivity.
  - rewrite (Hst ltac:(discriminate)) in *. destruct HN as [-> _]. cbn [natural] in *.
    apply SR_con; [reflexivity|]. destruct (mcrit_cases (e_con e)) as [E|[E|E]]; rewrite E in *; injection H as <-; reflexivity.
  - rewrite (Hst ltac:(discriminate)) in *. destruct HN as [-> _]. cbn [natural] in *.
    destruct (zcrit_cases (e_ancilla e) (e_zx e)) as [E|[E|[E|E]]].
    + apply SR_zx; auto. rewrite E in *. injection H as <-. reflexivity.
    + apply SR_zx; auto. rewrite E in *. injection H as <-. reflexivity.
    + rewrite E in H. cbn in H. destruct (onlyZXCheckerConfigured c) eqn:OZ; [|discriminate]. injection H as <-.
      apply SR_zx_only; auto.
    + rewrite E in H. cbn in H. destruct (is_ce (r_eq r0) ProbablyEquivalent) eqn:EP.
      * destruct (simulationsFinished c r0) eqn:SF; [|discriminate]. injection H as <-. rewrite E.
        apply SR_zx_conflict; auto.
        -- destruct (r_eq r0); try discriminate; reflexivity.
        -- now apply N.eqb_eq.
      * destruct (is_ce (r_eq r0) NoInformation) eqn:EI; [|discriminate].
        destruct (onlyZXCheckerConfigured c) eqn:OZ; [|discriminate]. injection H as <-.
        apply SR_zx_only; auto. left. rewrite E. repeat split; auto. destruct (r_eq r0); try discriminate; reflexivity.
Qed.

Lemma decided_reason e c g s : All e c g s -> decided (p_main s) = true ->
  exists r0 log0, EarlyRes (p_cfg s) r0 log0 /\ Forall (natural_entry e) (p_log s) /\
    (r_performed r0 <= r_started r0)%N /\ (r_started r0 <= maxSims (sim c))%N /\
    (r_started r0 - r_performed r0 <= N.of_nat (nsim (launches e c)))%N /\
    (forall y q, p_log s = (KSim, q, Some y) :: log0 -> (r_performed r0 + 1 <= r_started r0)%N) /\
    stop_reason e (p_cfg s) r0 log0 (p_res s) (p_log s).
Proof.
  intros [[FI FR FD FC] S L X EL] HD. destruct FR as [Hn Hc Hp].
  assert (ST : Stopped e (p_cfg s) (nsim (launches e c)) (p_res s) (p_log s)).
  { destruct (p_main s); try discriminate; apply Hp; discriminate. }
  destruct ST as (Hnat & r0 & log0 & HE & H1 & H2 & H3 & H4).
  exists r0, log0. rewrite FC, par_cfg_sim in H2. repeat split; auto; try apply HE.
  - intros y q E. destruct H4 as [(_ & E' & _)|(k & q' & st & E' & _ & Hk)].
    + exfalso. rewrite E' in E. apply (f_equal (@length _)) in E. cbn in E. lia.
    + apply Hk. congruence.
  - destruct H4 as [(-> & <- & HT)|(k & q & st & E & HH & Hk)].
    + destruct HT as [HT|(E1 & E2 & E3 & E4)]; [apply SR_timeout; auto|]. apply SR_zx_unsupported; auto.
    + rewrite E in *. inversion Hnat; subst. apply stop_cases; auto.
      intros Hks. eapply si_log; [exact S| |exact Hks]. rewrite E. now left.
Qed.

(** kinds in the log are enabled *)
Lemma log_kind e c g s k q st : All e c g s -> In (k, q, st) (p_log s) -> In k (launches e c).
Proof. intros A. eapply li_kinds, A. Qed.

Lemma zxOn_from e c q : zxOn e c = true -> zcrit (e_ancilla e) (e_zx e) = q -> from_zx_checker e c q.
Proof. unfold zxOn. intros H E. apply andb_true_iff in H. destruct H. repeat split; auto. Qed.

Lemma par_exec_flags e c :
  runAlternatingChecker (exec (par_cfg e c)) = runAlternatingChecker (exec c) /\
  runConstructionChecker (exec (par_cfg e c)) = runConstructionChecker (exec c) /\
  runSimulationChecker (exec (par_cfg e c)) = simOn c /\
  hasTimeout (par_cfg e c) = hasTimeout c.
Proof. unfold par_cfg. destruct (zx_alone_unsupported e c); repeat split. Qed.

Lemma simOn_true c : simOn c = true -> runSimulationChecker (exec c) = true /\ (0 < maxSims (sim c))%N.
Proof. unfold simOn. intros H. apply andb_true_iff in H. destruct H as [? H]. split; auto. now apply N.ltb_lt. Qed.

Lemma log_drawn e c g s k q y : All e c g s -> In (k, q, Some y) (p_log s) -> drawn_from e g y.
Proof.
  intros A Hin. destruct (f_draw _ _ _ _ (a_full _ _ _ _ A)) as (l & Hd & _ & Hl).
  eapply draws_in; [exact Hd|]. eauto.
Qed.

Theorem c02_source e c g s : All e c g s -> decided (p_main s) = true ->
  let q := r_eq (p_res s) in
  (q = Equivalent \/ q = EquivalentUpToGlobalPhase -> from_exact_checker e c q \/ from_zx_checker e c q) /\
  (q = NotEquivalent -> from_exact_checker e c q \/ refuted_by_simulation e c g) /\
  q <> EquivalentUpToPhase.
Proof.
  intros A HD. destruct (decided_reason _ _ _ _ A HD) as (r0 & log0 & HE & Hnat & _ & _ & _ & _ & HS). cbn zeta.
  assert (HEq : r_eq r0 = NoInformation \/ r_eq r0 = ProbablyEquivalent \/ r_eq r0 = ProbablyNotEquivalent).
  { destruct HE as [_ _ _ _ E _ _]. destruct (r_eq r0); auto; contradiction. }
  assert (LK : forall k q st, In (k, q, st) (p_log s) -> In k (launches e c)) by (intros; eapply log_kind; eauto).
  destruct HS as [-> _ _| -> _ E _ _ _|E CH ->|E ->|q E Hq ->|E Z E1 E2 ->|q E Hq OZ|y E Hy ->|y q E Hy Hq HP OS ->|y q E Hy Hq HP OS EP ->];
    cbn [set_eq r_eq].
  - destruct HEq as [-> |[-> | ->]]; repeat split; try discriminate; intros; try (intuition discriminate).
  - rewrite E. repeat split; try discriminate; intuition discriminate.
  - assert (HA := in_launches _ _ _ (LK _ _ _ ltac:(rewrite E; now left))). cbn in HA.
    repeat split; try (intros; left; left; auto); destruct (mcrit_cases (e_alt e)) as [Q|[Q|Q]]; rewrite Q; discriminate.
  - assert (HA := in_launches _ _ _ (LK _ _ _ ltac:(rewrite E; now left))). cbn in HA.
    repeat split; try (intros; left; right; auto); destruct (mcrit_cases (e_con e)) as [Q|[Q|Q]]; rewrite Q; discriminate.
  - assert (HA := in_launches _ _ _ (LK _ _ _ ltac:(rewrite E; now left))). cbn in HA.
    repeat split.
    + intros _. right. now apply zxOn_from.
    + intros HN. fold q in Hq. destruct Hq as [Hq|Hq]; congruence.
    + destruct Hq as [Hq|Hq]; congruence.
  - repeat split; try discriminate; intuition discriminate.
  - destruct Hq as [(Hq & _ & ->)|(Hq & ->)].
    + cbn. rewrite Hq. repeat split; try discriminate; intuition discriminate.
    + destruct HEq as [-> |[-> | ->]]; repeat split; try discriminate; intuition discriminate.
  - assert (HA := in_launches _ _ _ (LK _ _ _ ltac:(rewrite E; now left))). cbn in HA.
    repeat split; try discriminate; try (intuition discriminate). intros _. right. split; [now apply simOn_true|].
    exists y. split; [|assumption]. eapply log_drawn; [exact A|]. rewrite E. now left.
  - destruct HEq as [-> |[-> | ->]]; cbn; repeat split; try discriminate; intuition discriminate.
  - repeat split; try discriminate; intuition discriminate.
Qed.

Theorem c02_sound (truth : criterion -> Prop) e c g s : All e c g s -> decided (p_main s) = true ->
  (runAlternatingChecker (exec c) = true -> e_canHandle e = true -> truth (mcrit (e_alt e))) ->
  (runConstructionChecker (exec c) = true -> truth (mcrit (e_con e))) ->
  (runZXChecker (exec c) = true -> e_transformable e = true ->
     zcrit (e_ancilla e) (e_zx e) = Equivalent \/ zcrit (e_ancilla e) (e_zx e) = EquivalentUpToGlobalPhase ->
     truth (zcrit (e_ancilla e) (e_zx e))) ->
  (forall y, drawn_from e g y -> e_sim e y = SNotEquivalent -> truth NotEquivalent) ->
  definitive (r_eq (p_res s)) -> truth (r_eq (p_res s)).
Proof.
  intros A HD Ha Hc Hz Hs Hdef. destruct (c02_source _ _ _ _ A HD) as (H1 & H2 & H3).
  assert (EX : from_exact_checker e c (r_eq (p_res s)) -> truth (r_eq (p_res s))).
  { intros [(E & E' & <-)|[E <-]]; auto. }
  destruct Hdef as [Q|[Q|[Q|Q]]].
  - destruct (H1 (or_introl Q)) as [?|(E1 & E2 & E3)]; auto. rewrite <- E3. apply Hz; auto. rewrite E3. auto.
  - destruct (H1 (or_intror Q)) as [?|(E1 & E2 & E3)]; auto. rewrite <- E3. apply Hz; auto. rewrite E3. auto.
  - contradiction.
  - destruct (H2 Q) as [?|(E1 & y & E2 & E3)]; auto. rewrite Q. eauto.
Qed.

(** *** simulations that were consumed *)
Definition sim_stims (log : list entry) : list Stim := log_stims (filter is_sim_entry log).

Lemma log_stims_split log : Permutation (log_stims log) (sim_stims log ++ log_stims (filter (fun en => negb (is_sim_entry en)) log)).
Proof.
  unfold sim_stims. induction log as [|a log IH]; [constructor|]. cbn [filter log_stims flat_map].
  change (flat_map (fun en : entry => olist (snd en)) log) with (log_stims log). rewrite IH.
  destruct (is_sim_entry a); cbn [negb log_stims flat_map].
  - change (flat_map (fun en : entry => olist (snd en)) ?l) with (log_stims l). now rewrite app_assoc.
  - change (flat_map (fun en : entry => olist (snd en)) ?l) with (log_stims l).
    rewrite !app_assoc. apply Permutation_app_tail. apply Permutation_app_comm.
Qed.

Lemma sim_stims_length e log : Forall (natural_entry e) log -> length (sim_stims log) = simcount log.
Proof.
  unfold sim_stims, simcount. induction 1 as [|[[k q] st] log Hn HF IH]; [reflexivity|].
  cbn [filter]. destruct (is_sim_entry (k, q, st)) eqn:E; [|assumption].
  cbn [log_stims flat_map]. rewrite app_length. unfold log_stims in IH. rewrite IH.
  destruct k; try discriminate. destruct Hn as (_ & Hs & _). specialize (Hs eq_refl). destruct st; [reflexivity|congruence].
Qed.

Lemma sim_stims_in log y : In y (sim_stims log) -> exists q, In (KSim, q, Some y) log.
Proof.
  unfold sim_stims, log_stims. rewrite in_flat_map. intros ([[k q] st] & Hin & Hy).
  apply filter_In in Hin. destruct Hin as [Hin HE]. destruct k; try discriminate.
  destruct st; cbn in Hy; [|contradiction]. destruct Hy as [->|[]]. eauto.
Qed.

Lemma consumed_draws e c g s : All e c g s ->
  exists l rest, draws e g l (p_gen s) /\ Permutation l (sim_stims (p_log s) ++ rest).
Proof.
  intros A. destruct (si_draws _ _ _ (a_stim _ _ _ _ A)) as (l & Hd & HP). exists l.
  assert (exists rest, Permutation l (log_stims (p_log s) ++ rest)) as (rest & HP').
  { destruct (unwinding (p_main s)); eauto. }
  exists (log_stims (filter (fun en => negb (is_sim_entry en)) (p_log s)) ++ rest). split; [assumption|].
  rewrite HP'. rewrite app_assoc. apply Permutation_app_tail. apply log_stims_split.
Qed.

Lemma early_nonref e log y : Forall (natural_entry e) log -> Forall early_entry log -> In y (sim_stims log) -> nonref e y.
Proof.
  intros HN HF Hy. apply sim_stims_in in Hy. destruct Hy as (q & Hin).
  rewrite Forall_forall in *. specialize (HN _ Hin). specialize (HF _ Hin). cbn in HF. destruct HF as [HF _].
  destruct (nonref_of _ _ _ HN HF) as (y' & E & H & _). injection E as <-. exact H.
Qed.

Lemma simcount_le e c g s r0 log0 : stop_reason e (p_cfg s) r0 log0 (p_res s) (p_log s) ->
  EarlyRes (p_cfg s) r0 log0 ->
  r_performed (p_res s) = N.of_nat (simcount (p_log s)) \/ (All e c g s -> False).
Proof.
  intros HS HE. left. pose proof (er_perf _ _ _ HE) as HP.
  destruct HS as [-> -> _| -> -> E _ _ _| -> CH ->| -> ->|q -> Hq ->| -> Z E1 E2 ->|q -> Hq OZ|y -> Hy ->|y q -> Hy Hq HP' OS ->|y q -> Hy Hq HP' OS EP ->];
    rewrite ?simcount_cons; cbn [set_eq set_counts r_performed is_simk Nat.add]; auto; try lia.
  destruct Hq as [(_ & _ & ->)|(_ & ->)]; cbn; auto.
Qed.

Theorem c03_pe e c g s : All e c g s -> decided (p_main s) = true -> r_eq (p_res s) = ProbablyEquivalent ->
  exists l used rest, draws e g l (p_gen s) /\ Permutation l (used ++ rest) /\ used <> [] /\
    N.of_nat (length used) = r_performed (p_res s) /\ Forall (nonref e) used.
Proof.
  intros A HD HQ. destruct (decided_reason _ _ _ _ A HD) as (r0 & log0 & HE & Hnat & _ & _ & _ & _ & HS).
  destruct (consumed_draws _ _ _ _ A) as (l & rest & Hd & HP).
  exists l, (sim_stims (p_log s)), rest. split; [assumption|]. split; [assumption|].
  destruct (simcount_le e c g _ _ _ HS HE) as [HC|HC]; [|contradiction (HC A)].
  assert (G : simcount (p_log s) <> O /\ Forall (nonref e) (sim_stims (p_log s))).
  { pose proof HE as [_ _ EE _ EQ _ _].
    destruct HS as [Er El _| Er El E _ _ _|El CH Er|El Er|q El Hq Er|El Z E1 E2 Er|q El Hq OZ|y El Hy Er|y q El Hy Hq HP' OS Er|y q El Hy Hq HP' OS EP Er];
      try (rewrite Er in HQ; cbn in HQ; discriminate).
    - rewrite Er in HQ. rewrite HQ in EQ. rewrite El. split; [apply EQ|].
      rewrite El in Hnat. apply Forall_forall. intros y Hy. eapply early_nonref; eauto.
    - congruence.
    - rewrite Er in HQ. cbn in HQ. destruct (mcrit_cases (e_alt e)) as [Q|[Q|Q]]; congruence.
    - rewrite Er in HQ. cbn in HQ. destruct (mcrit_cases (e_con e)) as [Q|[Q|Q]]; congruence.
    - rewrite Er in HQ. cbn in HQ. destruct Hq; congruence.
    - destruct Hq as [(Hq & _ & Er)|(Hq & Er)]; rewrite Er in HQ.
      + cbn in HQ. congruence.
      + (* only ZX configured but a simulation was consumed *)
        exfalso. rewrite HQ in EQ. destruct EQ as [ES _].
        destruct (f_cfg _ _ _ _ (a_full _ _ _ _ A)). pose proof (onlyzx_nosim e c) as HNS.
        rewrite (f_cfg _ _ _ _ (a_full _ _ _ _ A)) in OZ. apply HNS; [assumption|].
        unfold simcount in ES. destruct (filter is_sim_entry log0) as [|[[k0 q1] st1] f] eqn:EF; [cbn in ES; congruence|].
        assert (Hf : In (k0, q1, st1) (filter is_sim_entry log0)) by (rewrite EF; now left).
        apply filter_In in Hf. destruct Hf as [Hf Hb]. destruct k0; try discriminate.
        eapply log_kind; [exact A|]. rewrite El. right. exact Hf.
    - rewrite El. rewrite simcount_cons. cbn [is_simk]. split; [lia|].
      apply Forall_forall. intros y' Hy'. unfold sim_stims in Hy'. cbn [filter is_sim_entry log_stims flat_map olist snd app] in Hy'.
      destruct Hy' as [<-|Hy']; [assumption|]. rewrite El in Hnat. inversion Hnat; subst.
      eapply early_nonref with (log := log0); eauto. }
  destruct G as [G1 G2]. rewrite HC. rewrite (sim_stims_length e) by assumption. repeat split; auto.
  intros E. apply G1. rewrite <- (sim_stims_length e) by assumption. rewrite E. reflexivity.
Qed.

Lemma zcrit_pne a v : zcrit a v = ProbablyNotEquivalent -> v = ZFail /\ a = false.
Proof. destruct v, a; cbn; intros; try discriminate; auto. Qed.

Theorem c03_pne e c g s : All e c g s -> decided (p_main s) = true -> r_eq (p_res s) = ProbablyNotEquivalent ->
  runZXChecker (exec c) = true /\ e_transformable e = true /\ e_zx e = ZFail /\ e_ancilla e = false.
Proof.
  intros A HD HQ. destruct (decided_reason _ _ _ _ A HD) as (r0 & log0 & HE & Hnat & _ & _ & _ & _ & HS).
  assert (Key : zx_pne (p_log s) -> runZXChecker (exec c) = true /\ e_transformable e = true /\ e_zx e = ZFail /\ e_ancilla e = false).
  { intros (st & Hin). pose proof (log_kind _ _ _ _ _ _ _ A Hin) as HK. apply in_launches in HK. unfold zxOn in HK.
    apply andb_true_iff in HK. rewrite Forall_forall in Hnat. specialize (Hnat _ Hin). destruct Hnat as [E _]. cbn in E.
    symmetry in E. apply zcrit_pne in E. tauto. }
  pose proof HE as [_ _ EE _ EQ _ _].
  destruct HS as [Er El _| Er El E _ _ _|El CH Er|El Er|q El Hq Er|El Z E1 E2 Er|q El Hq OZ|y El Hy Er|y q El Hy Hq HP' OS Er|y q El Hy Hq HP' OS EP Er];
      try (rewrite Er in HQ; cbn in HQ; discriminate).
  - rewrite Er in HQ. rewrite HQ in EQ. rewrite El in Key. auto.
  - congruence.
  - rewrite Er in HQ. cbn in HQ. destruct (mcrit_cases (e_alt e)) as [Q|[Q|Q]]; congruence.
  - rewrite Er in HQ. cbn in HQ. destruct (mcrit_cases (e_con e)) as [Q|[Q|Q]]; congruence.
  - rewrite Er in HQ. cbn in HQ. destruct Hq; congruence.
  - destruct Hq as [(Hq & _ & Er)|(Hq & Er)].
    + apply Key. exists None. rewrite El. left. unfold q in *. rewrite Hq. reflexivity.
    + rewrite Er in HQ. rewrite HQ in EQ. apply Key. destruct EQ as (st & Hin). exists st. rewrite El. now right.
  - apply Key. rewrite Er in HQ. cbn in HQ. destruct (r_eq r0) eqn:ER; cbn in HQ; try discriminate.
    destruct EQ as (st & Hin). exists st. rewrite El. now right.
Qed.

Theorem c04_counts e c g s : All e c g s -> decided (p_main s) = true ->
  (r_performed (p_res s) <= r_started (p_res s))%N /\ (r_started (p_res s) <= maxSims (sim c))%N /\
  (r_started (p_res s) - r_performed (p_res s) <= N.of_nat (nsim (launches e c)))%N.
Proof.
  intros A HD. destruct (decided_reason _ _ _ _ A HD) as (r0 & log0 & HE & Hnat & H1 & H2 & H3 & H4 & HS).
  destruct HS as [Er El _| Er El E _ _ _|El CH Er|El Er|q El Hq Er|El Z E1 E2 Er|q El Hq OZ|y El Hy Er|y q El Hy Hq HP' OS Er|y q El Hy Hq HP' OS EP Er];
    try (rewrite Er; cbn [set_eq r_started r_performed]; auto; fail).
  - destruct Hq as [(_ & _ & ->)|(_ & ->)]; cbn [set_eq r_started r_performed]; auto.
  - specialize (H4 _ _ El). rewrite Er. cbn [r_started r_performed]. lia.
  - specialize (H4 _ _ El). rewrite Er. cbn [set_eq set_counts r_started r_performed]. lia.
  - specialize (H4 _ _ El). rewrite Er. cbn [set_eq set_counts r_started r_performed]. lia.
Qed.

Theorem c04_only_sim e c g s : All e c g s -> decided (p_main s) = true ->
  onlySimulationCheckerConfigured c = true -> (0 < maxSims (sim c))%N -> hasTimeout c = false ->
  r_eq (p_res s) <> NotEquivalent ->
  r_performed (p_res s) = maxSims (sim c) /\ r_eq (p_res s) = ProbablyEquivalent.
Proof.
  intros A HD HO Hm HT HQ. destruct (decided_reason _ _ _ _ A HD) as (r0 & log0 & HE & Hnat & H1 & H2 & H3 & H4 & HS).
  pose proof (f_cfg _ _ _ _ (a_full _ _ _ _ A)) as FC.
  unfold onlySimulationCheckerConfigured in HO. rewrite !andb_true_iff, !negb_true_iff in HO.
  destruct HO as (((HO1 & HO2) & HO3) & HO4).
  assert (LK : forall k q st, In (k, q, st) (p_log s) -> k = KSim).
  { intros k q st Hin. pose proof (log_kind _ _ _ _ _ _ _ A Hin) as HK. apply in_launches in HK.
    destruct k; auto; unfold zxOn in HK; try (rewrite HO4 in HK; discriminate); congruence. }
  assert (OZF : onlyZXCheckerConfigured (p_cfg s) = false).
  { rewrite FC. unfold onlyZXCheckerConfigured. destruct (par_exec_flags e c) as (-> & -> & -> & _).
    unfold simOn. rewrite HO2. apply N.ltb_lt in Hm. rewrite Hm. cbn. now rewrite andb_false_r. }
  rewrite FC in *.
  destruct HS as [Er El HT'| Er El E _ OZ' _|El CH Er|El Er|q El Hq Er|El Z E1 E2 Er|q El Hq OZ|y El Hy Er|y q El Hy Hq HP' OS Er|y q El Hy Hq HP' OS EP Er];
    try (exfalso; specialize (LK _ _ _ ltac:(rewrite El; left; reflexivity)); discriminate).
  - exfalso. destruct (par_exec_flags e c) as (_ & _ & _ & E). congruence.
  - congruence.
  - exfalso. rewrite Er in HQ. cbn in HQ. congruence.
  - rewrite Er. cbn [set_eq set_counts r_performed r_eq]. rewrite HP', par_cfg_sim. split; [reflexivity|].
    pose proof HE as [_ _ _ _ EQ _ _]. destruct (r_eq r0); cbn; auto; try contradiction.
    exfalso. destruct EQ as (st & Hin). specialize (LK KZX ProbablyNotEquivalent st ltac:(rewrite El; now right)). discriminate.
  - exfalso. pose proof HE as [_ _ _ _ EQ _ _]. rewrite EP in EQ. destruct EQ as (st & Hin).
    specialize (LK KZX ProbablyNotEquivalent st ltac:(rewrite El; now right)). discriminate.
Qed.

Theorem c05_cex e c g s : All e c g s -> decided (p_main s) = true ->
  (r_cexIn (p_res s) = None /\ r_cexOut (p_res s) = None /\
    (r_eq (p_res s) = NotEquivalent -> from_exact_checker e c NotEquivalent)) \/
  (exists y, r_eq (p_res s) = NotEquivalent /\ simOn c = true /\ drawn_from e g y /\ e_sim e y = SNotEquivalent /\
     r_cexIn (p_res s) = (if storeCEXinput (sim c) then Some y else None) /\
     r_cexOut (p_res s) = (if storeCEXoutput (sim c) then Some y else None)).
Proof.
  intros A HD. destruct (decided_reason _ _ _ _ A HD) as (r0 & log0 & HE & Hnat & H1 & H2 & H3 & H4 & HS).
  pose proof HE as [C1 C2 _ _ EQ _ _].
  assert (HEq : r_eq r0 <> NotEquivalent).
  { intros E. rewrite E in EQ. exact EQ. }
  assert (LK : forall k q st, In (k, q, st) (p_log s) -> In k (launches e c)) by (intros; eapply log_kind; eauto).
  destruct HS as [Er El HT'| Er El E _ OZ' _|El CH Er|El Er|q El Hq Er|El Z E1 E2 Er|q El Hq OZ|y El Hy Er|y q El Hy Hq HP' OS Er|y q El Hy Hq HP' OS EP Er];
    try (left; rewrite Er; cbn [set_eq set_counts r_cexIn r_cexOut r_eq]; repeat split; auto; intros; congruence).
  - left. rewrite Er; cbn [set_eq r_cexIn r_cexOut r_eq]; repeat split; auto. intros E. left.
    split; [|split; assumption]. exact (in_launches _ _ _ (LK _ _ _ ltac:(rewrite El; left; reflexivity))).
  - left. rewrite Er; cbn [set_eq r_cexIn r_cexOut r_eq]; repeat split; auto. intros E. right.
    split; [|assumption]. exact (in_launches _ _ _ (LK _ _ _ ltac:(rewrite El; left; reflexivity))).
  - left. rewrite Er; cbn [set_eq r_cexIn r_cexOut r_eq]; repeat split; auto. intros E. exfalso. destruct Hq; congruence.
  - left. destruct Hq as [(Hq & _ & Er)|(Hq & Er)]; rewrite Er; cbn [set_eq r_cexIn r_cexOut r_eq]; repeat split; auto;
      intros; exfalso; congruence.
  - right. exists y. rewrite Er. cbn [r_eq r_cexIn r_cexOut]. rewrite (f_cfg _ _ _ _ (a_full _ _ _ _ A)), par_cfg_sim.
    repeat split; auto.
    + assert (HK := in_launches _ _ _ (LK _ _ _ ltac:(rewrite El; left; reflexivity))). apply HK.
    + eapply log_drawn; [exact A|]. rewrite El. now left.
  - left. rewrite Er; cbn [set_eq set_counts r_cexIn r_cexOut r_eq]; repeat split; auto.
    destruct (r_eq r0); cbn; intros; congruence.
Qed.

(** without a ZX refutation, a run with an exact checker and no timeout ends with a definitive verdict *)
Theorem c15_definitive e c g s : All e c g s -> decided (p_main s) = true -> hasTimeout c = false ->
  (runAlternatingChecker (exec c) = true \/ runConstructionChecker (exec c) = true) ->
  ~ (runZXChecker (exec c) = true /\ e_transformable e = true /\ e_zx e = ZFail /\ e_ancilla e = false) ->
  from_exact_checker e c (r_eq (p_res s)) \/
  (from_zx_checker e c (r_eq (p_res s)) /\ (r_eq (p_res s) = Equivalent \/ r_eq (p_res s) = EquivalentUpToGlobalPhase)) \/
  (r_eq (p_res s) = NotEquivalent /\ refuted_by_simulation e c g).
Proof.
  intros A HD HT HX HZ. destruct (decided_reason _ _ _ _ A HD) as (r0 & log0 & HE & Hnat & _ & _ & _ & _ & HS).
  pose proof (f_cfg _ _ _ _ (a_full _ _ _ _ A)) as FC. rewrite FC in *.
  assert (LK : forall k q st, In (k, q, st) (p_log s) -> In k (launches e c)) by (intros; eapply log_kind; eauto).
  assert (NZ : onlyZXCheckerConfigured (par_cfg e c) = false /\ onlySimulationCheckerConfigured (par_cfg e c) = false).
  { unfold onlyZXCheckerConfigured, onlySimulationCheckerConfigured. destruct (par_exec_flags e c) as (-> & -> & -> & _).
    destruct HX as [-> | ->]; cbn; rewrite ?andb_false_r; split; reflexivity. }
  destruct NZ as [NZ NS].
  assert (NP : ~ zx_pne (p_log s)).
  { intros (st & Hin). pose proof (LK _ _ _ Hin) as HK. apply in_launches in HK. unfold zxOn in HK.
    apply andb_true_iff in HK. rewrite Forall_forall in Hnat. specialize (Hnat _ Hin). destruct Hnat as [E _]. cbn in E.
    symmetry in E. apply zcrit_pne in E. apply HZ. tauto. }
  destruct HS as [Er El HT'| Er El E _ OZ' _|El CH Er|El Er|q El Hq Er|El Z E1 E2 Er|q El Hq OZ|y El Hy Er|y q El Hy Hq HP' OS Er|y q El Hy Hq HP' OS EP Er]; try congruence.
  - exfalso. destruct (par_exec_flags e c) as (_ & _ & _ & E). congruence.
  - left. left. rewrite Er. split; [|split; [exact CH|reflexivity]]. exact (in_launches _ _ _ (LK _ _ _ ltac:(rewrite El; left; reflexivity))).
  - left. right. rewrite Er. split; [|reflexivity]. exact (in_launches _ _ _ (LK _ _ _ ltac:(rewrite El; left; reflexivity))).
  - right. left. rewrite Er. cbn [set_eq r_eq]. split; [|exact Hq]. apply zxOn_from; [|reflexivity].
    exact (in_launches _ _ _ (LK _ _ _ ltac:(rewrite El; left; reflexivity))).
  - exfalso. apply NP. exists None. rewrite El. now left.
  - right. right. rewrite Er. split; [reflexivity|].
    assert (HK := in_launches _ _ _ (LK _ _ _ ltac:(rewrite El; left; reflexivity))). cbn in HK.
    split; [now apply simOn_true|]. exists y. split; [|assumption]. eapply log_drawn; [exact A|]. rewrite El. now left.
  - exfalso. pose proof HE as [_ _ _ _ EQ _ _]. rewrite EP in EQ. destruct EQ as (st & Hin). apply NP. exists st. rewrite El. now right.
Qed.

End Proofs.
