(** Result invariants of the parallel flow, continued: main steps, reachability, consequences. *)
From Coq Require Import String List Bool NArith QArith Arith Lia.
From Verif Require Import Criterion Config SeqFlow SeqSpec SeqProofs ParFlow ParSpec ParProofs ParProofs2.
Import ListNotations.
Local Open Scope list_scope.

Section Proofs.
Context {Stim Gen : Type}.
Notation env := (env Stim Gen).
Notation pst := (pst Stim Gen).
Notation slot := (slot Stim).
Notation entry := (kind * criterion * option Stim)%type.
Implicit Types (e : env) (s : pst) (c : config) (x : slot) (g : Gen).

Ltac simp := cbn [set_main set_next set_pres set_slot set_queue set_pgen add_log begin_signal set_pdone
   p_cfg p_slots p_queue p_done p_main p_next p_res p_gen p_log phase_signal] in *.

Lemma early_counts c (r : results Stim) log a : EarlyRes c r log -> EarlyRes c (set_counts a (r_performed r) r) log.
Proof. intros [? ? ? ? ? ? ?]. split; auto. Qed.

Lemma zcrit_cases a v : zcrit a v = Equivalent \/ zcrit a v = EquivalentUpToGlobalPhase \/ zcrit a v = NoInformation \/ zcrit a v = ProbablyNotEquivalent.
Proof. destruct v, a; cbn; auto. Qed.

Lemma inv_consumed e ks s i q x ck : Inv e ks s -> p_main s = MLoop -> p_queue s = i :: q ->
  nth_error (p_slots s) i = Some x -> sl_exn x = false -> sl_chk x = Some ck ->
  nth_error ks i = Some (k_kind ck) /\ natural_entry e (k_kind ck, k_eq ck, k_stim ck) /\ (i < length ks)%nat.
Proof.
  intros [HL HN HS HQ HND HD HM] EM EQ Hx Hexn Hck.
  destruct (HQ i) as (Hlt & y & Hy & Hw); [rewrite EQ; now left|]. assert (y = x) as -> by congruence.
  destruct (HS _ _ Hx) as [[_ (k & Hk & (A & B & C & D))]|[? _]]; [|lia].
  rewrite Hw in D. destruct D as [D1 D2]. rewrite EM in HD. cbn in HD.
  rewrite (A _ Hck). split; [assumption|]. split; [|lia].
  destruct (D1 HD) as [?|(ck' & E & Hn & Hh)]; [congruence|]. assert (ck' = ck) as -> by congruence.
  split; [|split].
  - rewrite Hn. now rewrite (A _ Hck).
  - destruct (D2 Hexn) as (ck' & E' & Hs). assert (ck' = ck) as -> by congruence. exact Hs.
  - rewrite <- (A _ Hck). exact Hh.
Qed.

Lemma res_main e ks s s' : Inv e ks s -> ResInv e ks s -> main_step s = Some s' -> ResInv e ks s'.
Proof.
  intros HI [Hn Hc Hp] H. pose proof HI as [HL HN HS HQ HND HD HM]. unfold main_step in H.
  destruct (p_main s) as [[|k rest]| | j | | | | | | |] eqn:EM; try discriminate; cbn [early] in *.
  - injection H as <-. destruct Hp as (HE & H1 & H2 & H3). split; simp; auto. cbn [early].
    split; [assumption|]. pose proof (er_perf _ _ _ HE) as HP. rewrite H2 in HP. cbn in HP.
    assert (Ho : outst ks (set_main MLoop s) = outst ks s) by (apply outst_ext; reflexivity).
    cbn [nsim is_simk filter length] in H1. simp. rewrite Ho. cbn in H1. lia.
  - destruct (firstn_app_cons _ _ _ _ HM HN) as (Hk & HM' & HL').
    destruct (nth_error (p_slots s) (p_next s)) as [x|] eqn:Ex.
    2:{ apply nth_error_None in Ex. lia. }
    injection H as <-. destruct Hp as (HE & H1 & H2 & H3). split; simp; auto. cbn [early].
    match goal with |- context [outst ks ?t] => set (s1 := t) end.
    assert (Hno : outst ks s1 = (outst ks s + (if is_simk k then 1 else 0))%nat).
    { assert (B1 : busy ks s (p_next s) = false).
      { unfold busy. destruct (HS _ _ Ex) as [[? _]|[_ ->]]; [lia|].
        unfold idle_at. rewrite Ex. cbn [is_idle empty_slot sl_w negb orb].
        rewrite existsb_notin; [apply andb_false_r|]. intros Hin. apply HQ in Hin. lia. }
      assert (B2 : busy ks s1 (p_next s) = is_simk k).
      { unfold busy, simslot. rewrite Hk. unfold idle_at, s1; simp. rewrite (upd_same _ _ _ _ Ex).
        cbn. apply andb_true_r. }
      pose proof (outst_flip ks s s1 (p_next s) HL') as F. rewrite B1, B2 in F.
      enough (forall j, j <> p_next s -> busy ks s1 j = busy ks s j) as G by (specialize (F G); destruct (is_simk k); lia).
      intros j Hj. unfold busy, idle_at, s1; simp. rewrite upd_other by auto. reflexivity. }
    rewrite Hno. unfold nsim in *. cbn [filter] in H1.
    destruct k; cbn [is_simk length] in *;
      (split; [solve [auto using early_counts]|]); cbn [r_started set_counts]; repeat split; auto; try lia.
  - destruct Hp as (HE & H1 & H2 & H3).
    destruct (p_queue s) as [|i q] eqn:EQ; [discriminate|].
    destruct (HQ i (or_introl eq_refl)) as (Hilt & x & Hx & Hw). rewrite Hx in H.
    unfold is_idle in H. rewrite Hw in H. cbn [negb] in H.
    inversion HND as [|? ? Hni HND']; subst.
    destruct (sl_exn x) eqn:Exn.
    { injection H as <-. split; simp; auto. cbn [early]. split; [assumption|]. lia. }
    destruct (sl_chk x) as [ck|] eqn:Eck.
    2:{ exfalso. destruct (HS _ _ Hx) as [[_ (k & _ & (_ & _ & _ & D))]|[? _]]; [|lia].
        rewrite Hw in D. destruct D as [_ D]. destruct (D Exn) as (? & ? & _). congruence. }
    destruct (inv_consumed _ _ _ _ _ _ _ HI EM EQ Hx Exn Eck) as (Hk & Hnat & Hil).
    assert (B1 : busy ks s i = is_simk (k_kind ck)).
    { unfold busy, simslot. rewrite Hk, EQ. cbn [existsb]. rewrite Nat.eqb_refl, orb_true_l, orb_true_r. apply andb_true_r. }
    assert (Hsimst : k_kind ck = KSim -> (r_performed (p_res s) + 1 <= r_started (p_res s))%N).
    { intros E. rewrite E in B1. cbn in B1. assert (1 <= outst ks s)%nat; [|lia].
      unfold outst. assert (In i (filter (busy ks s) (seq 0 (length ks)))).
      { apply filter_In. split; [apply in_seq; lia|assumption]. }
      destruct (filter _ _); [contradiction|]. cbn. lia. }
    assert (Hz : k_kind ck = KZX -> k_eq ck = Equivalent \/ k_eq ck = EquivalentUpToGlobalPhase \/
                  k_eq ck = NoInformation \/ k_eq ck = ProbablyNotEquivalent).
    { intros E. destruct Hnat as [-> _]. rewrite E. apply zcrit_cases. }
    destruct (handle (p_cfg s) (p_res s) (k_kind ck) (k_eq ck) (k_stim ck)) as [r|r|r] eqn:EH.
    + injection H as <-. split; simp; auto. cbn [early]. intros _ _.
      split; [auto|]. exists (p_res s), (p_log s). split; [assumption|]. pose proof (outst_le ks s).
      repeat split; try lia. right. exists (k_kind ck), (k_eq ck), (k_stim ck). auto.
    + injection H as <-.
      destruct (handle_continue _ _ _ _ _ _ _ HE ltac:(apply Hnat) EH Hz) as (HE' & Es & Ep & Em).
      split; simp; auto. rewrite EM. cbn [early]. split; [assumption|].
      match goal with |- context [outst ks ?t] => set (s1 := t) end.
      assert (B2 : busy ks s1 i = false).
      { unfold busy, idle_at, s1; simp. rewrite Hx. unfold is_idle. rewrite Hw.
        rewrite existsb_notin by assumption. cbn. apply andb_false_r. }
      pose proof (outst_flip ks s s1 i Hil) as F. rewrite B1, B2 in F.
      specialize (F ltac:(intros j Hj; unfold busy, idle_at, s1; simp; rewrite EQ; cbn [existsb];
         apply Nat.eqb_neq in Hj; rewrite Hj; reflexivity)).
      rewrite Es, Ep. destruct (is_simk (k_kind ck)); [|rewrite N.add_0_r; repeat split; try lia].
      specialize (Em eq_refl). repeat split; try lia.
    + injection H as <-.
      destruct (handle_restart _ _ _ _ _ _ _ HE EH) as (Ek & HE' & Es & Ep & Em). rewrite Ek in *.
      split; simp; auto. rewrite EM. cbn [early]. split; [assumption|].
      match goal with |- context [outst ks ?t] => set (s1 := t) end.
      assert (F : outst ks s1 = outst ks s).
      { apply outst_ext. intros j. unfold busy, idle_at, s1; simp. rewrite EQ. cbn [existsb].
        destruct (Nat.eq_dec j i) as [->|Hj].
        - rewrite (upd_same _ _ _ _ Hx), Nat.eqb_refl, orb_true_l, orb_true_r. cbn. reflexivity.
        - rewrite upd_other by auto. apply Nat.eqb_neq in Hj. rewrite Hj. reflexivity. }
      rewrite F, Es, Ep. repeat split; try lia.
  - specialize (Hp ltac:(discriminate) ltac:(discriminate)).
    destruct (nth_error (p_slots s) j) as [x|] eqn:Ex; injection H as <-; split; simp; auto; cbn; auto.
  - specialize (Hp ltac:(discriminate) ltac:(discriminate)).
    destruct (forallb is_idle (p_slots s)); [|discriminate]. injection H as <-. split; simp; auto.
    destruct (forallb has_chk (p_slots s)); cbn; auto.
  - destruct (forallb is_idle (p_slots s)); [|discriminate]. injection H as <-. split; simp; auto.
Qed.

Lemma res_timeout e ks s s' : ResInv e ks s -> timeout_step s = Some s' -> ResInv e ks s'.
Proof.
  intros [Hn Hc Hp] H. unfold timeout_step in H.
  destruct (p_main s) eqn:EM; try discriminate. destruct (p_queue s) eqn:EQ; try discriminate.
  destruct (hasTimeout (p_cfg s)) eqn:ET; [|discriminate]. injection H as <-. cbn [early] in Hp.
  destruct Hp as (HE & H1 & H2 & H3). split; simp; auto. cbn [early]. intros _ _. split; [auto|].
  pose proof (outst_le ks s).
  exists (p_res s), (p_log s). repeat split; auto; try lia; apply HE.
Qed.

Lemma cfg_step e a s s' : pstep e a s = Some s' -> p_cfg s' = p_cfg s.
Proof.
  destruct a; cbn; intros H.
  - unfold main_step in H. destruct (p_main s) as [[|k rest]| | j | | | | | | |] eqn:EM; try discriminate;
    repeat match type of H with
      | context [match ?x with _ => _ end] => destruct x; try discriminate end; injection H as <-; reflexivity.
  - unfold timeout_step in H. destruct (p_main s); try discriminate. destruct (p_queue s); try discriminate.
    destruct (hasTimeout (p_cfg s)); [|discriminate]. injection H as <-. reflexivity.
  - assert (HH : worker_step e i s = Some s' \/ abort_step i s = Some s') by auto. apply worker_shape in HH.
    destruct HH as [->|(x & x' & _ & _ & _ & ? & _)]; auto.
  - assert (HH : worker_step e i s = Some s' \/ abort_step i s = Some s') by auto. apply worker_shape in HH.
    destruct HH as [->|(x & x' & _ & _ & _ & ? & _)]; auto.
Qed.

(** *** launching arithmetic *)
Lemma exact_length e c : N.of_nat (length (exact_launches e c)) =
  (nb (runAlternatingChecker (exec c)) + nb (runConstructionChecker (exec c)) + nb (zxOn e c))%N.
Proof. unfold exact_launches. destruct (runAlternatingChecker _), (runConstructionChecker _), (zxOn e c); reflexivity. Qed.

Lemma exact_nsim e c : nsim (exact_launches e c) = O.
Proof. unfold exact_launches. destruct (runAlternatingChecker _), (runConstructionChecker _), (zxOn e c); reflexivity. Qed.
Lemma nsim_app l l' : nsim (l ++ l') = (nsim l + nsim l')%nat.
Proof. unfold nsim. now rewrite filter_app, app_length. Qed.
Lemma nsim_repeat n : nsim (repeat KSim n) = n.
Proof. unfold nsim. induction n; cbn; auto. Qed.
Lemma launches_nsim e c : nsim (launches e c) = N.to_nat (simulationsToStart e c).
Proof. unfold launches. now rewrite nsim_app, exact_nsim, nsim_repeat. Qed.

Lemma exact_le3 e c : (N.of_nat (length (exact_launches e c)) <= 3)%N.
Proof. rewrite exact_length. unfold nb. destruct (runAlternatingChecker _), (runConstructionChecker _), (zxOn e c); lia. Qed.

Definition wanted c : N := (if simOn c then maxSims (sim c) else 0)%N.
Lemma tasks_eq e c : sane_sims c ->
  tasksToExecute e c = (N.of_nat (length (exact_launches e c)) + wanted c)%N.
Proof.
  intros Hs. unfold tasksToExecute. rewrite exact_length. pose proof (exact_le3 e c) as H3. rewrite exact_length in H3.
  unfold wanted, sane_sims, two64 in *. rewrite N.mod_small; [destruct (simOn c); lia|].
  destruct (simOn c); lia.
Qed.

Lemma eff_ge e c : sane_sims c -> enough_threads e c ->
  (N.of_nat (length (exact_launches e c)) <= effectiveThreads e c)%N.
Proof.
  intros Hs He. unfold effectiveThreads. rewrite tasks_eq by assumption.
  unfold enough_threads in He. pose proof (exact_length e c) as E. unfold zxOn in E.
  assert (N.of_nat (length (exact_launches e c)) <= nthreads (exec c))%N by (rewrite E; lia). lia.
Qed.

Lemma eff_bound e c : sane_sims c -> (effectiveThreads e c < two64)%N.
Proof.
  intros Hs. unfold effectiveThreads. rewrite tasks_eq by assumption. pose proof (exact_le3 e c).
  unfold wanted, sane_sims, two64 in *. destruct (simOn c); lia.
Qed.

Lemma toStart_eq e c : sane_sims c -> enough_threads e c ->
  simulationsToStart e c = (effectiveThreads e c - N.of_nat (length (exact_launches e c)))%N.
Proof.
  intros Hs He. pose proof (eff_ge e c Hs He) as Hge. unfold simulationsToStart.
  pose proof (tasks_eq e c Hs) as HT. pose proof (eff_bound e c Hs) as HB.
  assert (HE : (effectiveThreads e c <= N.of_nat (length (exact_launches e c)) + wanted c)%N)
    by (unfold effectiveThreads; rewrite HT; lia).
  unfold wanted in HE. cbn zeta.
  destruct (simOn c); [|lia].
  set (nf := N.of_nat (length (exact_launches e c))) in *.
  replace (effectiveThreads e c + two64 - nf)%N with (effectiveThreads e c - nf + 1 * two64)%N by (unfold two64 in *; lia).
  rewrite N.mod_add by (unfold two64; lia). rewrite N.mod_small by lia. lia.
Qed.

(** the launched workers fill exactly the allocated slots *)
Lemma launches_fill e c : sane_sims c -> enough_threads e c ->
  length (launches e c) = N.to_nat (effectiveThreads e c).
Proof.
  intros Hs He. unfold launches. rewrite app_length, repeat_length, (toStart_eq e c Hs He).
  pose proof (eff_ge e c Hs He). lia.
Qed.

Lemma par_cfg_sim e c : sim (par_cfg e c) = sim c.
Proof. unfold par_cfg. destruct (zx_alone_unsupported e c); reflexivity. Qed.

Lemma toStart_le e c : (simulationsToStart e c <= maxSims (sim c))%N.
Proof. unfold simulationsToStart. destruct (simOn c); lia. Qed.

Lemma zx_alone_launch e c : zx_alone_unsupported e c = true -> launches e c = [] /\ effectiveThreads e c = 0%N /\
  onlyZXCheckerConfigured (par_cfg e c) = true /\ e_transformable e = false.
Proof.
  intros H. pose proof H as H0. unfold zx_alone_unsupported in H.
  apply andb_true_iff in H. destruct H as [H H3]. apply andb_true_iff in H. destruct H as [H1 H2].
  apply negb_true_iff in H2. pose proof H3 as H4. unfold onlyZXCheckerConfigured, par_cfg1, set_runs in H3. cbn in H3.
  apply andb_true_iff in H3. destruct H3 as [H3 Hz]. apply andb_true_iff in H3. destruct H3 as [H3 Ha].
  apply andb_true_iff in H3. destruct H3 as [Hcn Hsi]. rewrite negb_true_iff in *.
  assert (exact_launches e c = []) as E.
  { unfold exact_launches, zxOn. rewrite Ha, Hcn, H1, H2. reflexivity. }
  assert (Hw : simulationsToStart e c = 0%N) by (unfold simulationsToStart; rewrite Hsi; reflexivity).
  split; [unfold launches; rewrite E, Hw; reflexivity|]. split; [|split].
  - unfold effectiveThreads, tasksToExecute, zxOn. rewrite Ha, Hcn, Hsi, H1, H2. cbn. lia.
  - unfold par_cfg. rewrite H0. exact H4.
  - assumption.
Qed.

Lemma res_init e c g pp : ResInv e (launches e c) (par_init e c g pp).
Proof.
  assert (EE : EarlyRes (par_cfg e c) (mkResults NoInformation 0 0 (@None Stim) None pp) []).
  { split; cbn; auto; try (intros (? & []); fail); try congruence.
    split; [reflexivity|]. intros (? & []). }
  split; unfold par_init; simp; auto.
  - rewrite launches_nsim, par_cfg_sim. pose proof (toStart_le e c). lia.
  - destruct (zx_alone_unsupported e c) eqn:Z; cbn [early].
    + intros _ _. destruct (zx_alone_launch _ _ Z) as (_ & _ & H1 & H2). split; [constructor|].
      exists (mkResults NoInformation 0 0 None None pp), []. split; [assumption|].
      cbn [r_started r_performed r_eq]. repeat split; try lia.
      left. repeat split. right. repeat split; auto.
    + split; [assumption|]. cbn [r_started]. split; [lia|]. split; [reflexivity|].
      unfold outst. rewrite (filter_ext_in _ (fun _ => false)).
      * induction (seq 0 _); cbn; auto.
      * intros j _. unfold busy, idle_at. cbn [p_slots p_queue existsb].
        destruct (nth_error _ j) eqn:E; [apply nth_error_repeat in E; subst|]; cbn; apply andb_false_r.
Qed.

Record Full e c g s : Prop := mkFull {
  f_inv : Inv e (launches e c) s;
  f_res : ResInv e (launches e c) s;
  f_draw : DrawInv e g s;
  f_cfg : p_cfg s = par_cfg e c }.

Lemma full_step e c g a s s' : Full e c g s -> pstep e a s = Some s' -> Full e c g s'.
Proof.
  intros [I R D C] H. split.
  - eapply inv_step; eauto.
  - destruct a; cbn in H; [eapply res_main; eauto|eapply res_timeout; eauto|eapply res_worker; eauto|eapply res_worker; eauto].
  - eapply draw_step; eauto.
  - rewrite (cfg_step _ _ _ _ H). exact C.
Qed.

Theorem reachable_full e c g pp s : sane_sims c -> enough_threads e c -> reachable e c g pp s -> Full e c g s.
Proof.
  intros Hs He (acts & H). eapply prun_inv; [|clear H|exact H].
  - intros a s1 s2. apply full_step.
  - split.
    + apply inv_init. now rewrite launches_fill.
    + apply res_init.
    + exists []. split; [constructor|]. split; [|intros ? ? ? []].
      intros i x ck st Hx Hc. unfold par_init in Hx. cbn in Hx. apply nth_error_repeat in Hx. subst. discriminate.
    + reflexivity.
Qed.
End Proofs.
