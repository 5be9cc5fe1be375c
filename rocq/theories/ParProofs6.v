(** Termination, waiting forever, slot bounds, cancellation in the parallel flow. *)
From Coq Require Import String List Bool NArith QArith Arith Lia Permutation.
From Verif Require Import Criterion Config SeqFlow SeqSpec SeqProofs ParFlow ParSpec ParProofs ParProofs2 ParProofs3 ParProofs4 ParProofs5 ParDraws.
Import ListNotations.
Local Open Scope list_scope.

Section Proofs.
Context {Stim Gen : Type}.
Notation env := (env Stim Gen).
Notation pst := (pst Stim Gen).
Notation slot := (slot Stim).
Notation entry := (kind * criterion * option Stim)%type.
Implicit Types (e : env) (s : pst) (c : config) (x : slot) (g : Gen).

Ltac simp := cbn [set_main set_next set_pres set_slot set_queue set_pgen add_log begin_signal set_pdone
   p_cfg p_slots p_queue p_done p_main p_next p_res p_gen p_log phase_signal] in *.

(** *** every schedule is finite *)
Definition wweight (w : wpc) : nat :=
  match w with WIdle => 0 | WStart _ => 6 | WDraw => 5 | WRead => 4 | WRun => 3 | WPush => 2 end.
Fixpoint sumw (l : list slot) : nat := match l with [] => 0 | x :: t => wweight (sl_w x) + sumw t end.
Definition mweight (n : nat) (m : mpc) : nat :=
  match m with
  | MLaunch ks => 8 * length ks + n + 5 | MLoop => n + 4 | MSignal j => (n - j) + 3 | MEnd | MUnwind => 2
  | _ => 0 end.
Definition measure s : nat :=
  sumw (p_slots s) + length (p_queue s) + mweight (length (p_slots s)) (p_main s) +
  8 * N.to_nat (maxSims (sim (p_cfg s)) - r_started (p_res s)).

Lemma sumw_upd l i x x' : nth_error l i = Some x -> (sumw (upd l i x') + wweight (sl_w x) = sumw l + wweight (sl_w x'))%nat.
Proof.
  revert i. induction l as [|a l IH]; destruct i; cbn; intros H; try discriminate.
  - injection H as ->. lia.
  - specialize (IH _ H). lia.
Qed.

Lemma handle_started c (r r' : results Stim) k q st :
  (handle c r k q st = Continue r' \/ handle c r k q st = Stop r') -> r_started r' = r_started r.
Proof.
  unfold handle. intros [H|H]; destruct q, k; try discriminate H;
  repeat match type of H with context [if ?b then _ else _] => destruct b end; try discriminate H; injection H as <-; reflexivity.
Qed.
Lemma handle_restarted c (r r' : results Stim) k q st : handle c r k q st = Restart r' ->
  r_started r' = (r_started r + 1)%N /\ (r_started r < maxSims (sim c))%N.
Proof.
  unfold handle. intros H. destruct q, k; try discriminate H;
  repeat match type of H with context [if ?b then _ else _] => let E := fresh in destruct b eqn:E end; try discriminate H; injection H as <-; cbn;
  (split; [reflexivity|]);
  match goal with E : N.ltb _ _ = true |- _ => apply N.ltb_lt in E; cbn in E; exact E end.
Qed.

Lemma live_weight s : live s = true -> (2 <= mweight (length (p_slots s)) (p_main s))%nat.
Proof. unfold live. destruct (p_main s); intros; try discriminate; cbn; lia. Qed.

Lemma measure_worker e i s s' : worker_step e i s = Some s' -> (measure s' < measure s)%nat.
Proof.
  intros H. unfold worker_step in H. destruct (live s) eqn:EL; cbn [negb] in H; [|discriminate].
  destruct (nth_error (p_slots s) i) as [x|] eqn:Ex; [|discriminate].
  assert (U : forall x', (wweight (sl_w x') < wweight (sl_w x))%nat -> (measure (set_slot i x' s) < measure s)%nat).
  { intros x' Hw. unfold measure. simp. rewrite upd_length. pose proof (sumw_upd _ _ _ x' Ex). lia. }
  destruct (sl_w x) as [|k'| | | |] eqn:Ew; try discriminate.
  - destruct (sl_chk x).
    { injection H as <-. apply U. cbn. destruct k'; cbn; lia. }
    destruct (ctor_throws e (p_cfg s) k'); [injection H as <-; apply U; cbn; lia|].
    destruct k'; try (injection H as <-; apply U; cbn; lia).
    destruct (e_zx_perm_ok e); [injection H as <-; apply U; cbn; lia|].
    injection H as <-. pose proof (live_weight s EL). unfold measure. simp. cbn [mweight]. lia.
  - destruct (e_gen e (p_gen s)) as [[st g']|]; [|discriminate]. destruct (sl_chk x); [|discriminate]. injection H as <-.
    match goal with |- (measure (set_pgen _ ?t) < _)%nat => change (measure (set_pgen g' t)) with (measure t) end.
    apply U. cbn. lia.
  - injection H as <-. apply U. cbn. destruct (p_done s); cbn; lia.
  - destruct (sl_chk x) as [ck|]; [|discriminate].
    destruct (k_kind ck), (e_canHandle e); injection H as <-; apply U; cbn; lia.
  - injection H as <-. unfold measure. simp. rewrite upd_length, app_length.
    pose proof (sumw_upd _ _ _ (slot_w WIdle x) Ex) as HS. rewrite Ew in HS. cbn in HS |- *. lia.
Qed.

Lemma measure_step e a s s' : pstep e a s = Some s' -> (measure s' < measure s)%nat.
Proof.
  destruct a; cbn; intros H.
  - unfold main_step in H. destruct (p_main s) as [[|k rest]| | j | | | | | | |] eqn:EM; try discriminate.
    + injection H as <-. unfold measure. simp. rewrite EM. cbn. lia.
    + destruct (nth_error (p_slots s) (p_next s)) as [x|] eqn:Ex; injection H as <-; unfold measure; simp; rewrite EM.
      * rewrite upd_length. match goal with |- context [upd _ _ ?y] => pose proof (sumw_upd _ _ _ y Ex) as HS end.
        cbn [sl_w wweight mweight length] in *.
        assert (r_started (p_res s) <= r_started (match k with
             | KSim => set_counts (r_started (p_res s) + 1) (r_performed (p_res s)) (p_res s) | _ => p_res s end))%N.
        { destruct k; cbn; lia. }
        lia.
      * cbn. lia.
    + destruct (p_queue s) as [|i q] eqn:EQ; [discriminate|].
      destruct (nth_error (p_slots s) i) as [x|] eqn:Ex; [|injection H as <-; unfold measure; simp; rewrite EM, EQ; cbn; lia].
      destruct (is_idle x); cbn [negb] in H; [|discriminate].
      destruct (sl_exn x); [injection H as <-; unfold measure; simp; rewrite EM, EQ; cbn; lia|].
      destruct (sl_chk x) as [ck|]; [|injection H as <-; unfold measure; simp; rewrite EM, EQ; cbn; lia].
      destruct (handle (p_cfg s) (p_res s) (k_kind ck) (k_eq ck) (k_stim ck)) as [r|r|r] eqn:EH; injection H as <-; unfold measure; simp; rewrite EM, EQ.
      * rewrite (handle_started _ _ _ _ _ _ (or_intror EH)). cbn. lia.
      * rewrite (handle_started _ _ _ _ _ _ (or_introl EH)). cbn. lia.
      * destruct (handle_restarted _ _ _ _ _ _ EH) as [-> HL]. rewrite upd_length.
        pose proof (sumw_upd _ _ _ (slot_w (WStart KSim) x) Ex) as HS. cbn [slot_w sl_w wweight] in HS.
        cbn [length mweight]. lia.
    + destruct (nth_error (p_slots s) j) as [x|] eqn:Ex; injection H as <-; unfold measure; simp; rewrite EM.
      * assert (j < length (p_slots s))%nat by (apply nth_error_Some; congruence).
        rewrite upd_length. match goal with |- context [upd _ _ ?y] => pose proof (sumw_upd _ _ _ y Ex) as HS end.
        assert (sl_w (if has_chk x then mkSlot (sl_chk x) true (sl_w x) (sl_exn x) else x) = sl_w x) as EW by (destruct (has_chk x); reflexivity).
        rewrite EW in HS. cbn [mweight]. lia.
      * cbn. lia.
    + destruct (forallb is_idle (p_slots s)); [|discriminate]. injection H as <-. unfold measure; simp; rewrite EM.
      destruct (forallb has_chk (p_slots s)); cbn; lia.
    + destruct (forallb is_idle (p_slots s)); [|discriminate]. injection H as <-. unfold measure; simp; rewrite EM. cbn; lia.
  - unfold timeout_step in H. destruct (p_main s) eqn:EM; try discriminate. destruct (p_queue s) eqn:EQ; try discriminate.
    destruct (hasTimeout (p_cfg s)); [|discriminate]. injection H as <-. unfold measure; simp; rewrite EM, EQ. cbn. lia.
  - eapply measure_worker; eauto.
  - unfold abort_step in H. destruct (live s) eqn:EL; cbn [negb] in H; [|discriminate].
    destruct (nth_error (p_slots s) i) as [x|] eqn:Ex; [|discriminate].
    destruct (sl_w x) eqn:Ew; try discriminate. destruct (sl_chk x) as [ck|]; [|discriminate].
    destruct (sl_flag x); [|discriminate]. injection H as <-. unfold measure. simp. rewrite upd_length.
    match goal with |- context [upd _ _ ?y] => pose proof (sumw_upd _ _ _ y Ex) as HS end.
    rewrite Ew in HS. cbn [sl_w wweight] in HS. lia.
Qed.

Theorem schedules_finite e acts s s' : prun e acts s = Some s' -> (length acts + measure s' <= measure s)%nat.
Proof.
  revert s. induction acts as [|a acts IH]; cbn; intros s H; [injection H as <-; lia|].
  destruct (pstep e a s) as [s1|] eqn:E; [|discriminate]. apply measure_step in E. apply IH in H. lia.
Qed.

Lemma measure_init e c g pp : (measure (par_init e c g pp) <= 8 * length (launches e c) + N.to_nat (effectiveThreads e c) + 5 + 8 * N.to_nat (maxSims (sim c)))%nat.
Proof.
  unfold measure, par_init. simp. rewrite repeat_length, par_cfg_sim. cbn [r_started length]. rewrite N.sub_0_r.
  assert (sumw (repeat (@empty_slot Stim) (N.to_nat (effectiveThreads e c))) = 0%nat) as ->.
  { induction (N.to_nat (effectiveThreads e c)); cbn; auto. }
  destruct (zx_alone_unsupported e c); cbn [mweight]; lia.
Qed.

(** *** moving or stuck *)
Lemma step_or_stuck e s : (exists a s', pstep e a s = Some s') \/ stuck e s.
Proof.
  destruct (main_step s) as [s'|] eqn:EM; [left; exists AMain, s'; exact EM|].
  destruct (timeout_step s) as [s'|] eqn:ET; [left; exists ATimeout, s'; exact ET|].
  assert (W : forall n, (exists i s', worker_step e i s = Some s') \/ (forall i, (i < n)%nat -> worker_step e i s = None)).
  { induction n as [|n IH]; [right; intros; lia|]. destruct IH as [?|IH]; [now left|].
    destruct (worker_step e n s) as [s'|] eqn:E; [left; eauto|]. right. intros i Hi.
    destruct (Nat.eq_dec i n) as [->|]; [assumption|]. apply IH. lia. }
  assert (A : forall n, (exists i s', abort_step i s = Some s') \/ (forall i, (i < n)%nat -> abort_step i s = None)).
  { induction n as [|n IH]; [right; intros; lia|]. destruct IH as [?|IH]; [now left|].
    destruct (abort_step n s) as [s'|] eqn:E; [left; eauto|]. right. intros i Hi.
    destruct (Nat.eq_dec i n) as [->|]; [assumption|]. apply IH. lia. }
  destruct (W (length (p_slots s))) as [(i & s' & H)|HW]; [left; exists (AWorker i), s'; exact H|].
  destruct (A (length (p_slots s))) as [(i & s' & H)|HA]; [left; exists (AAbort i), s'; exact H|].
  right. intros [| |i|i]; cbn; auto.
  - destruct (lt_dec i (length (p_slots s))); [auto|]. unfold worker_step. destruct (live s); [|reflexivity]. cbn [negb].
    destruct (nth_error (p_slots s) i) eqn:E; [|reflexivity]. exfalso; apply n; apply nth_error_Some; congruence.
  - destruct (lt_dec i (length (p_slots s))); [auto|]. unfold abort_step. destruct (live s); [|reflexivity]. cbn [negb].
    destruct (nth_error (p_slots s) i) eqn:E; [|reflexivity]. exfalso; apply n; apply nth_error_Some; congruence.
Qed.

Theorem completes e s : exists acts s', prun e acts s = Some s' /\ stuck e s'.
Proof.
  remember (measure s) as n eqn:En. revert s En. induction n as [n IH] using (well_founded_induction lt_wf). intros s En.
  destruct (step_or_stuck e s) as [(a & s' & H)|H].
  - pose proof (measure_step _ _ _ _ H). destruct (IH (measure s') ltac:(lia) s' eq_refl) as (acts & s2 & H2 & HS).
    exists (a :: acts), s2. split; [|assumption]. cbn. now rewrite H.
  - exists [], s. auto.
Qed.

Lemma started_le e c g s : All e c g s -> (match p_main s with MTerminated | MOutOfBounds => True | _ => False end -> False) ->
  (r_started (p_res s) <= maxSims (sim c))%N.
Proof.
  intros [[FI FR FD FC] S L X EL] HF. destruct FR as [_ HC HP]. rewrite FC in *.
  assert (EC : maxSims (sim (par_cfg e c)) = maxSims (sim c)) by (unfold par_cfg; destruct (zx_alone_unsupported e c); reflexivity).
  rewrite EC in *. destruct (early (p_main s)) eqn:EE.
  - destruct HP as [_ HP]. destruct (p_main s) as [ks| | | | | | | | |]; try discriminate; try (destruct HP as (H1 & H2); lia); try (destruct HP as (H1 & H2 & _); lia).
  - destruct HP as [_ HP]; [intros E; rewrite E in HF; now apply HF|intros E; rewrite E in HF; now apply HF|].
    destruct HP as (r0 & log0 & _ & _ & H2 & _ & [(-> & _)|(k & q & st & _ & HH & _)]); [rewrite EC in H2; exact H2|].
    pose proof (handle_count (par_cfg e c) r0 k q st) as HS. rewrite HH in HS. rewrite HS, <- EC. exact H2.
Qed.

(** *** what a stuck, unfinished state looks like *)
Lemma stuck_shape e c g s : gen_supplies e g (maxSims (sim c)) -> All e c g s -> Budget e g s -> stuck e s -> ~ finished s ->
  p_main s = MLoop /\ p_queue s = [] /\ hasTimeout c = false /\
  (forall i x, nth_error (p_slots s) i = Some x -> sl_w x = WIdle).
Proof.
  intros HG A HB HS HF. pose proof A as [[FI FR FD FC] S L X EL].
  assert (HMAX : (r_started (p_res s) <= maxSims (sim c))%N) by (apply (started_le _ _ _ _ A); intros E; apply HF; unfold finished; destruct (p_main s); auto).
  assert (LV : live s = true) by (unfold live, finished in *; destruct (p_main s); auto; exfalso; apply HF; exact I).
  assert (Idle : forall i x, nth_error (p_slots s) i = Some x -> sl_w x = WIdle).
  { intros i x Hx. pose proof (HS (AWorker i)) as HW. cbn in HW. unfold worker_step in HW. rewrite LV in HW. cbn [negb] in HW.
    rewrite Hx in HW. pose proof (inv_slots _ _ _ FI _ _ Hx) as [[_ (k & Hk & (AA & _ & _ & D))]|[_ ->]]; [|reflexivity].
    destruct (sl_w x) as [|k'| | | |] eqn:Ew; auto; exfalso.
    - destruct (sl_chk x); [discriminate|]. destruct (ctor_throws e (p_cfg s) k'); [discriminate|].
      destruct k'; try discriminate. destruct (e_zx_perm_ok e); discriminate.
    - destruct D as (_ & Dc & _). destruct HB as (l & Hd & HB).
      assert (HT1 : (1 <= todraw (p_slots s))%nat).
      { pose proof (todraw_upd (p_slots s) i x (mkSlot None false WIdle false) Hx) as T. unfold will_draw in T. rewrite Ew in T. cbn in T. lia. }
      pose proof (HG _ _ Hd ltac:(lia)) as HN. destruct (e_gen e (p_gen s)) as [[st g']|]; [|congruence].
      destruct (sl_chk x); [discriminate|congruence].
    - discriminate.
    - destruct D as ((ck & Dc & _) & _). rewrite Dc in HW. destruct (k_kind ck), (e_canHandle e); discriminate.
    - discriminate. }
  assert (FI' : forallb is_idle (p_slots s) = true).
  { apply forallb_forall. intros x Hin. apply In_nth_error in Hin. destruct Hin as (i & Hx). unfold is_idle. now rewrite (Idle _ _ Hx). }
  pose proof (HS AMain) as HM. cbn in HM. unfold main_step in HM.
  unfold finished in HF.
  destruct (p_main s) as [[|k rest]| | j | | | | | | |] eqn:EM; try (exfalso; apply HF; exact I); try discriminate.
  - destruct (nth_error (p_slots s) (p_next s)); discriminate.
  - destruct (p_queue s) as [|i q] eqn:EQ.
    + repeat split; auto. pose proof (HS ATimeout) as HT. cbn in HT. unfold timeout_step in HT. rewrite EM, EQ in HT.
      rewrite FC in HT. destruct (par_exec_flags e c) as (_ & _ & _ & E). rewrite E in HT.
      destruct (hasTimeout c); [discriminate|reflexivity].
    + exfalso. destruct (inv_queue _ _ _ FI i) as (Hlt & x & Hx & Hw); [rewrite EQ; now left|].
      rewrite Hx in HM. unfold is_idle in HM. rewrite Hw in HM. cbn in HM.
      destruct (sl_exn x); [discriminate|]. destruct (sl_chk x); [|discriminate].
      destruct (handle _ _ _ _ _); discriminate.
  - destruct (nth_error (p_slots s) j); discriminate.
  - rewrite FI' in HM. discriminate.
  - rewrite FI' in HM. discriminate.
Qed.

Lemma zx_alone_states e c g pp s : zx_alone_unsupported e c = true -> reachable e c g pp s ->
  p_main s = MEnd \/ p_main s = MReturned.
Proof.
  intros Z (acts & H).
  assert (P : p_slots s = [] /\ (p_main s = MEnd \/ p_main s = MReturned)); [|tauto].
  revert H. eapply (prun_inv (fun s => p_slots s = [] /\ (p_main s = MEnd \/ p_main s = MReturned))).
  - intros a s1 s2 [HS HM] H. destruct a; cbn in H.
    + unfold main_step in H. destruct HM as [HM|HM]; rewrite HM in H; [|discriminate]. rewrite HS in H. cbn in H.
      injection H as <-. simp. auto.
    + unfold timeout_step in H. destruct HM as [HM|HM]; rewrite HM in H; discriminate.
    + unfold worker_step in H. destruct (live s1); [|discriminate]. rewrite HS in H. destruct i; discriminate.
    + unfold abort_step in H. destruct (live s1); [|discriminate]. rewrite HS in H. destruct i; discriminate.
  - unfold par_init. simp. rewrite Z. destruct (zx_alone_launch _ _ Z) as (_ & -> & _). cbn. auto.
Qed.

Lemma simcount_zero_idle ks s : p_queue s = [] -> (forall i x, nth_error (p_slots s) i = Some x -> sl_w x = WIdle) -> outst ks s = O.
Proof.
  intros HQ HI. unfold outst. rewrite (filter_ext_in _ (fun _ => false)).
  - induction (seq 0 _); cbn; auto.
  - intros j _. unfold busy, idle_at. rewrite HQ. destruct (nth_error (p_slots s) j) eqn:E.
    + unfold is_idle. rewrite (HI _ _ E). cbn. apply andb_false_r.
    + cbn. apply andb_false_r.
Qed.

Lemma pend_nil s : p_queue s = [] -> (forall i x, nth_error (p_slots s) i = Some x -> sl_w x = WIdle) -> pend s = [].
Proof.
  intros HQ HI. unfold pend. induction (seq 0 _) as [|i l IH]; [reflexivity|]. cbn [flat_map]. rewrite IH, app_nil_r.
  unfold pend_at. destruct (nth_error (p_slots s) i) eqn:E; [|reflexivity]. unfold pending. rewrite (HI _ _ E), HQ. reflexivity.
Qed.

Lemma in_launches_rev e c k :
  match k with KAlt => runAlternatingChecker (exec c) = true | KCon => runConstructionChecker (exec c) = true
             | KZX => zxOn e c = true | KSim => simulationsToStart e c <> 0%N end -> In k (launches e c).
Proof.
  unfold launches, exact_launches. rewrite !in_app_iff. destruct k; intros H.
  - right. destruct (N.to_nat (simulationsToStart e c)) eqn:E; [lia|]. now left.
  - left. left. rewrite H. now left.
  - left. right. left. rewrite H. now left.
  - left. right. right. rewrite H. now left.
Qed.

Lemma nthreads_ge2 e c : choose_flow e c = FParallel -> (2 <= nthreads (exec c))%N /\ anythingToExecute c = true /\ onlySingleTask c = false.
Proof.
  unfold choose_flow. destruct (anythingToExecute c); cbn; [|discriminate]. destruct (e_empty e); [discriminate|].
  destruct (e_varfree e); [|discriminate].
  destruct (negb (parallel (exec c)) || (nthreads (exec c) <=? 1)%N || onlySingleTask c) eqn:E; [discriminate|].
  intros _. rewrite !orb_false_iff in E. destruct E as [[_ E] E2]. apply N.leb_gt in E. repeat split; auto; try lia.
Qed.

Theorem waits_implies_hang e c g pp s : choose_flow e c = FParallel -> sane_sims c -> enough_threads e c -> gen_supplies e g (maxSims (sim c)) ->
  reachable e c g pp s -> waits_forever e s -> hang_condition e c g.
Proof.
  intros HF HSS HET HG HR [HS HNF].
  pose proof (reachable_all _ _ _ _ _ HSS HET HR) as A.
  destruct (stuck_shape _ _ _ _ HG A (budget_reachable _ _ _ _ _ HR) HS HNF) as (EM & EQ & HT & Idle).
  destruct (zx_alone_unsupported e c) eqn:Z.
  { destruct (zx_alone_states _ _ _ _ _ Z HR); congruence. }
  destruct (nthreads_ge2 _ _ HF) as (H2 & HAny & _).
  pose proof A as [[FI FR FD FC] S L X EL].
  pose proof (xi_next _ _ _ X) as XN. rewrite EM in XN.
  destruct FR as [Hnat _ Hp]. rewrite EM in Hp. cbn [early] in Hp. destruct Hp as (HE & Hc1 & Hc2 & Hc3).
  assert (ALLLOG : forall k, In k (launches e c) -> exists q st, In (k, q, st) (p_log s)).
  { intros k Hin. apply In_nth_error in Hin. destruct Hin as (i & Hk).
    assert (Hi : (i < length (launches e c))%nat) by (apply nth_error_Some; congruence).
    destruct (nth_error (p_slots s) i) as [x|] eqn:Hx; [|apply nth_error_None in Hx; lia].
    eapply (li_all _ _ L); rewrite ?EM; eauto; try reflexivity; [lia|]. rewrite EQ. auto. }
  pose proof (er_entries _ _ _ HE) as HEE. rewrite Forall_forall in HEE.
  assert (NA : runAlternatingChecker (exec c) = false).
  { destruct (runAlternatingChecker (exec c)) eqn:E; [|reflexivity]. exfalso.
    destruct (ALLLOG KAlt) as (q & st & Hin); [now apply (in_launches_rev e c KAlt)|]. apply HEE in Hin. exact Hin. }
  assert (NC : runConstructionChecker (exec c) = false).
  { destruct (runConstructionChecker (exec c)) eqn:E; [|reflexivity]. exfalso.
    destruct (ALLLOG KCon) as (q & st & Hin); [now apply (in_launches_rev e c KCon)|]. apply HEE in Hin. exact Hin. }
  destruct (simOn c) eqn:SO.
  - destruct (simOn_true _ SO) as [SR SM].
    assert (NF : (N.of_nat (length (exact_launches e c)) <= 1)%N).
    { rewrite exact_length, NA, NC. unfold nb. destruct (zxOn e c); lia. }
    assert (NS : simulationsToStart e c <> 0%N).
    { rewrite toStart_eq by assumption. unfold effectiveThreads. rewrite tasks_eq by assumption. unfold wanted. rewrite SO. lia. }
    rewrite (simcount_zero_idle _ _ EQ Idle) in *. rewrite launches_nsim in Hc3.
    rewrite FC, par_cfg_sim in Hc3, Hc2.
    assert (Hst : r_performed (p_res s) = maxSims (sim c)) by (destruct Hc3; lia).
    pose proof HE as [_ _ _ EP EQ' EO EOS]. rewrite FC, par_cfg_sim in *.
    assert (SC : simcount (p_log s) <> O) by (intros E; rewrite E in EP; cbn in EP; lia).
    assert (NOS : onlySimulationCheckerConfigured (par_cfg e c) = false).
    { destruct (onlySimulationCheckerConfigured (par_cfg e c)) eqn:E; [|reflexivity]. exfalso. exact (EOS eq_refl SC Hst). }
    assert (ZON : zxOn e c = true).
    { unfold onlySimulationCheckerConfigured in NOS. destruct (par_exec_flags e c) as (E1 & E2 & E3 & _).
      rewrite E1, E2, E3, NA, NC, SO in NOS. cbn in NOS. apply negb_false_iff in NOS.
      unfold par_cfg in NOS. rewrite Z in NOS. cbn in NOS. exact NOS. }
    assert (NP : ~ zx_pne (p_log s)) by (intros HP; exact (EO HP SC Hst)).
    destruct (ALLLOG KZX) as (q & st & Hin); [now apply (in_launches_rev e c KZX)|].
    rewrite Forall_forall in Hnat. pose proof (Hnat _ Hin) as [Eq _]. cbn in Eq.
    assert (q = NoInformation) as HqN.
    { pose proof (HEE _ Hin) as [Hq|Hq]; [|exact Hq]. exfalso. apply NP. exists st. rewrite <- Hq. exact Hin. }
    unfold zxOn in ZON. apply andb_true_iff in ZON. destruct ZON as [ZR ZT].
    unfold hang_condition. repeat split; auto; [congruence|].
    destruct (si_draws _ _ _ S) as (l & Hd & HP). rewrite EM in HP. cbn in HP. rewrite (pend_nil _ EQ Idle), app_nil_r in HP.
    exists l, (p_gen s). split; [exact Hd|].
    assert (LS : log_stims (filter (fun en => negb (is_sim_entry en)) (p_log s)) = []).
    { unfold log_stims. rewrite flat_map_concat_map. 
      assert (G : forall l0, (forall en, In en l0 -> In en (p_log s) /\ is_sim_entry en = false) -> concat (map (fun en : entry => olist (snd en)) l0) = []).
      { induction l0 as [|[[k q1] st1] l0 IH]; intros HG0; [reflexivity|]. cbn [map concat]. rewrite IH by (intros; apply HG0; now right).
        destruct (HG0 _ (or_introl eq_refl)) as [Hi1 Hi2]. 
        rewrite (si_log _ _ _ S _ _ _ Hi1); [reflexivity|]. intros ->. discriminate. }
      apply G. intros en Hen. apply filter_In in Hen. destruct Hen as [? Hb]. split; [assumption|]. now apply negb_true_iff in Hb. }
    rewrite log_stims_split, LS, app_nil_r in HP.
    assert (HNF2 : Forall (natural_entry e) (p_log s)) by (now apply Forall_forall).
    split.
    + rewrite (Permutation_length HP), (sim_stims_length e) by assumption. lia.
    + apply Forall_forall. intros y Hy. rewrite HP in Hy. eapply early_nonref; eauto. apply HE.
  - exfalso.
    assert (RZ : runZXChecker (exec c) = true).
    { unfold anythingToExecute in HAny. unfold simOn in SO. rewrite SO, NA, NC in HAny. exact HAny. }
    assert (OZ1 : onlyZXCheckerConfigured (par_cfg1 c) = true).
    { unfold onlyZXCheckerConfigured, par_cfg1. cbn. now rewrite NA, NC, SO, RZ. }
    assert (TR : e_transformable e = true).
    { unfold zx_alone_unsupported in Z. rewrite RZ, OZ1 in Z. destruct (e_transformable e); [reflexivity|discriminate]. }
    destruct (ALLLOG KZX) as (q & st & Hin).
    { apply (in_launches_rev e c KZX). unfold zxOn. now rewrite RZ, TR. }
    eapply (li_onlyzx _ _ L); [rewrite EM; reflexivity| |exact Hin].
    rewrite FC. unfold onlyZXCheckerConfigured. destruct (par_exec_flags e c) as (-> & -> & -> & _).
    rewrite NA, NC, SO. cbn. unfold par_cfg. rewrite Z. cbn. now rewrite RZ, TR.
Qed.

(** *** the number of drawn stimuli is bounded by the number of started simulations *)
Lemma pend_le_outst ks e g s : StimInv e g s -> Inv e ks s -> length ks = length (p_slots s) -> (length (pend s) <= outst ks s)%nat.
Proof.
  intros S I EL. unfold pend, outst. rewrite EL.
  induction (seq 0 (length (p_slots s))) as [|i l IH]; [reflexivity|]. cbn [flat_map filter]. rewrite app_length.
  assert (length (pend_at s i) <= if busy ks s i then 1 else 0)%nat; [|destruct (busy ks s i); cbn [length]; lia].
  unfold pend_at. destruct (nth_error (p_slots s) i) as [x|] eqn:Hx; [|cbn; destruct (busy ks s i); lia].
  destruct (pending s i x) eqn:HP; [|cbn; destruct (busy ks s i); lia].
  unfold chk_stim. destruct (sl_chk x) as [ck|] eqn:Ec; [|cbn; destruct (busy ks s i); lia].
  destruct (k_stim ck) as [y|] eqn:Ek; [|cbn; destruct (busy ks s i); lia].
  assert (KS : k_kind ck = KSim).
  { destruct (k_kind ck) eqn:E; auto; exfalso; rewrite (si_nostim _ _ _ S _ _ _ Hx Ec) in Ek; congruence. }
  pose proof (inv_slots _ _ _ I _ _ Hx) as [[Hlt (k & Hk & (AA & _))]|[_ E0]]; [|subst x; discriminate].
  assert (busy ks s i = true) as ->; [|reflexivity].
  unfold busy, simslot, idle_at. rewrite Hk, Hx. rewrite <- (AA _ Ec), KS. cbn [is_simk andb].
  unfold pending in HP. unfold is_idle. destruct (sl_w x); auto.
Qed.

Lemma draws_le_started e c g s : All e c g s -> p_main s = MLoop ->
  exists l, draws e g l (p_gen s) /\ (N.of_nat (length l) <= r_started (p_res s))%N /\
    (forall k q y, In (k, q, Some y) (p_log s) -> In y l) /\
    (forall i x ck y, nth_error (p_slots s) i = Some x -> In i (p_queue s) -> sl_chk x = Some ck -> k_stim ck = Some y -> In y l).
Proof.
  intros [[FI FR FD FC] S L X EL] EM. destruct FR as [Hnat _ Hp]. rewrite EM in Hp. cbn [early] in Hp. destruct Hp as (HE & Hc1 & Hc2 & Hc3).
  destruct (si_draws _ _ _ S) as (l & Hd & HP). rewrite EM in HP. cbn in HP.
  exists l. split; [exact Hd|]. split; [|split].
  - assert (LS : (length (log_stims (p_log s)) <= simcount (p_log s))%nat).
    { rewrite (Permutation_length (log_stims_split (p_log s))), app_length, (sim_stims_length e) by assumption.
      enough (length (log_stims (filter (fun en => negb (is_sim_entry en)) (p_log s))) = 0)%nat by lia.
      pose proof (si_log _ _ _ S) as HL. clear - HL. induction (p_log s) as [|[[k q] st] t IH]; [reflexivity|].
      cbn [filter]. assert (IH' := IH ltac:(intros; eapply HL; [right; eassumption|assumption])).
      destruct (is_sim_entry (k, q, st)) eqn:E; cbn [negb]; [exact IH'|].
      cbn [log_stims flat_map snd]. rewrite app_length. unfold log_stims in IH'. rewrite IH'.
      rewrite (HL k q st (or_introl eq_refl)); [reflexivity|]. intros ->. discriminate. }
    pose proof (pend_le_outst _ _ _ _ S FI EL) as HPO. rewrite (Permutation_length HP), app_length.
    pose proof (er_perf _ _ _ HE). lia.
  - intros k q y Hin. rewrite HP. apply in_or_app. left. unfold log_stims. apply in_flat_map. exists (k, q, Some y). split; [assumption|now left].
  - intros i x ck y Hx Hin Hc Hk. rewrite HP. apply in_or_app. right. unfold pend. apply in_flat_map. exists i.
    split; [apply in_seq; split; [lia|]; apply nth_error_Some; congruence|].
    unfold pend_at. rewrite Hx. destruct (inv_queue _ _ _ FI _ Hin) as (_ & x' & Hx' & Hw). assert (x' = x) as -> by congruence.
    unfold pending. rewrite Hw. assert (existsb (Nat.eqb i) (p_queue s) = true) as -> by (now apply existsb_in).
    unfold chk_stim. rewrite Hc, Hk. now left.
Qed.

Lemma no_exn_cause e c k : no_exceptions e c -> In k (launches e c) -> ~ exn_cause e (par_cfg e c) k.
Proof.
  intros (N1 & N2 & N3 & N4) Hin HX. apply in_launches in Hin.
  assert (CE : ctor_throws e (par_cfg e c) k = ctor_throws e c k).
  { unfold par_cfg. destruct (zx_alone_unsupported e c); reflexivity. }
  destruct HX as [HX|[-> HX]]; [rewrite CE in HX|].
  - destruct k.
    + destruct Hin as [Hin _]. apply simOn_true in Hin. rewrite N1 in HX by apply Hin. discriminate.
    + destruct (N2 Hin) as [E _]. congruence.
    + rewrite N3 in HX by assumption. discriminate.
    + discriminate.
  - destruct (N2 Hin) as [_ E]. congruence.
Qed.

(** with the hang condition the main thread never leaves the loop *)
Theorem hang_invariant e c g pp s : choose_flow e c = FParallel -> sane_sims c -> enough_threads e c -> no_exceptions e c ->
  hang_condition e c g -> reachable e c g pp s ->
  (exists ks, p_main s = MLaunch ks) \/ p_main s = MLoop.
Proof.
  intros HF HSS HET HNX (NA & NC & SR & SM & ZR & ZT & ZN & HT & (l0 & g0 & Hd0 & HL0 & HN0)) HR.
  assert (SO : simOn c = true) by (unfold simOn; rewrite SR; now apply N.ltb_lt in SM).
  assert (ZA : zx_alone_unsupported e c = false) by (unfold zx_alone_unsupported; rewrite ZT, andb_false_r; reflexivity).
  destruct HR as (acts & H).
  assert (P : All e c g s /\ ((exists ks, p_main s = MLaunch ks) \/ p_main s = MLoop)); [|tauto].
  revert H. eapply (prun_inv (fun s => All e c g s /\ ((exists ks, p_main s = MLaunch ks) \/ p_main s = MLoop))).
  2:{ split; [apply (reachable_all e c g pp); auto; exists []; reflexivity|]. left. unfold par_init. simp. rewrite ZA. eauto. }
  intros a s1 s2 [A HM] H. pose proof (all_step _ _ _ _ _ _ A H) as A2. split; [exact A2|].
  pose proof A as [[FI FR FD FC] S L X EL].
  assert (HWK : forall i, (worker_step e i s1 = Some s2 \/ abort_step i s1 = Some s2) -> (exists ks, p_main s2 = MLaunch ks) \/ p_main s2 = MLoop).
  { intros i HW. apply worker_shape in HW. destruct HW as [->|(x & x' & _ & _ & _ & _ & _ & -> & _)]; [|assumption].
    exfalso. destruct (xi_term _ _ _ (a_exn _ _ _ _ A2) eq_refl) as [HK HB].
    destruct HNX as (_ & _ & _ & N4). rewrite N4 in HB by assumption. discriminate. }
  destruct a; cbn in H.
  - unfold main_step in H. destruct HM as [(ks & EM)|EM]; rewrite EM in H.
    + destruct ks as [|k rest]; [injection H as <-; simp; auto|].
      destruct (nth_error (p_slots s1) (p_next s1)) eqn:Ex.
      * injection H as <-. simp. eauto.
      * exfalso. injection H as <-. apply (xi_oob _ _ _ (a_exn _ _ _ _ A2)). reflexivity.
    + destruct (p_queue s1) as [|i q] eqn:EQ; [discriminate|].
      destruct (inv_queue _ _ _ FI i) as (Hlt & x & Hx & Hw); [rewrite EQ; now left|].
      rewrite Hx in H. unfold is_idle in H. rewrite Hw in H. cbn [negb] in H.
      destruct (sl_exn x) eqn:Exn.
      { exfalso. injection H as <-. destruct (xi_unwind _ _ _ (a_exn _ _ _ _ A2)) as (k & Hk & HC); [now left|].
        simp. rewrite FC in HC. eapply no_exn_cause; eauto. }
      destruct (sl_chk x) as [ck|] eqn:Eck.
      2:{ exfalso. pose proof (inv_slots _ _ _ FI _ _ Hx) as [[_ (k & _ & (_ & _ & _ & D))]|[? _]]; [|lia].
          rewrite Hw in D. destruct D as [_ D]. destruct (D Exn) as (? & ? & _). congruence. }
      destruct (inv_consumed _ _ _ _ _ _ _ FI EM EQ Hx Exn Eck) as (Hk & Hnat & Hil).
      destruct (handle (p_cfg s1) (p_res s1) (k_kind ck) (k_eq ck) (k_stim ck)) as [r|r|r] eqn:EH; injection H as <-; simp; auto.
      exfalso. destruct FR as [_ _ Hp]. rewrite EM in Hp. cbn [early] in Hp. destruct Hp as (HE & Hc1 & Hc2 & Hc3).
      assert (NOS : onlySimulationCheckerConfigured (par_cfg e c) = false /\ onlyZXCheckerConfigured (par_cfg e c) = false).
      { unfold onlySimulationCheckerConfigured, onlyZXCheckerConfigured. destruct (par_exec_flags e c) as (-> & -> & -> & _).
        unfold par_cfg. rewrite ZA. cbn. rewrite NA, NC, SO, ZR, ZT. auto. }
      destruct NOS as [NOS NOZ].
      assert (HK := nth_error_In _ _ Hk). apply in_launches in HK.
      assert (SRX : stop_reason e (p_cfg s1) (p_res s1) (p_log s1) r ((k_kind ck, k_eq ck, k_stim ck) :: p_log s1)).
      { apply stop_cases; auto. intros. eapply si_nostim; eauto. }
      assert (Hlen : forall (en : entry) (l1 : list entry), l1 <> en :: l1).
      { intros en l1 E. apply (f_equal (@length _)) in E. cbn in E. lia. }
      assert (NP : ~ zx_pne (p_log s1)).
      { intros (st & Hin). pose proof (a_full _ _ _ _ A) as F. destruct (f_res _ _ _ _ F) as [HNat _ _].
        rewrite Forall_forall in HNat. destruct (HNat _ Hin) as [E _]. cbn in E. congruence. }
      pose proof (er_eq _ _ _ HE) as EQR.
      rewrite FC in SRX.
      destruct SRX as [Er El _| Er El E _ _ _|El Er|El Er|qq El Hq Er|El Z E1 E2 Er|qq El Hq OZ|y El Hy Er|y qq El Hy Hq HP' OS Er|y qq El Hy Hq HP' OS EP Er];
        try congruence.
      * injection El as E1 _ _. rewrite E1 in HK. congruence.
      * injection El as E1 _ _. rewrite E1 in HK. congruence.
      * unfold qq in Hq. rewrite ZN in Hq. destruct Hq; discriminate.
      * injection El as E1 E2 E3.
        destruct (draws_le_started _ _ _ _ A EM) as (l & Hd & Hll & _ & Hq).
        rewrite FC, par_cfg_sim in Hc2.
        destruct (draws_prefix _ _ _ _ _ _ Hd Hd0 ltac:(lia)) as (l3 & El3).
        assert (In y l) by (eapply Hq; eauto; rewrite EQ; now left).
        rewrite Forall_forall in HN0. apply (HN0 y); [|exact Hy]. rewrite El3. apply in_or_app. now left.
      * rewrite EP in EQR. exact (NP EQR).
  - unfold timeout_step in H. destruct HM as [(ks & EM)|EM]; rewrite EM in H; [discriminate|].
    destruct (p_queue s1); [|discriminate]. rewrite FC in H. destruct (par_exec_flags e c) as (_ & _ & _ & E). rewrite E, HT in H. discriminate.
  - eauto.
  - eauto.
Qed.

Theorem hang_always e c g pp s : choose_flow e c = FParallel -> sane_sims c -> enough_threads e c -> no_exceptions e c ->
  hang_condition e c g -> reachable e c g pp s -> ~ finished s.
Proof.
  intros HF HSS HET HNX HH HR HFin. pose proof (hang_invariant _ _ _ _ _ HF HSS HET HNX HH HR) as HM.
  unfold finished in HFin. destruct HM as [(ks & EM)|EM]; rewrite EM in HFin; exact HFin.
Qed.

Theorem finished_normal e c g pp s : sane_sims c -> enough_threads e c -> no_exceptions e c ->
  reachable e c g pp s -> finished s -> p_main s = MReturned.
Proof.
  intros HSS HET HNX HR HF. pose proof (reachable_all _ _ _ _ _ HSS HET HR) as A. pose proof A as [[FI FR FD FC] S L X EL].
  unfold finished in HF. destruct X as [_ HT HU HO HN _].
  destruct (p_main s) eqn:EM; try contradiction; try reflexivity; exfalso.
  - destruct HU as (k & Hk & HC); [now right|]. rewrite FC in HC. eapply no_exn_cause; eauto.
  - destruct (HN eq_refl) as (k & Hk & HC). rewrite FC in HC. eapply no_exn_cause; eauto. now left.
  - destruct (HT eq_refl) as [HK HB]. apply in_launches in HK. unfold zxOn in HK. apply andb_true_iff in HK.
    destruct HNX as (_ & _ & _ & N4). rewrite N4 in HB by apply HK. discriminate.
Qed.

(** *** slot bounds *)
Theorem in_bounds e c g pp s : sane_sims c -> enough_threads e c -> reachable e c g pp s -> p_main s <> MOutOfBounds.
Proof. intros H1 H2 HR. exact (xi_oob _ _ _ (a_exn _ _ _ _ (reachable_all _ _ _ _ _ H1 H2 HR))). Qed.

Theorem out_of_bounds e c g pp : choose_flow e c = FParallel -> sane_sims c -> ~ enough_threads e c ->
  (nthreads (exec c) = 2%N /\ runAlternatingChecker (exec c) = true /\ runConstructionChecker (exec c) = true /\
   runZXChecker (exec c) = true /\ e_transformable e = true) /\
  (exists s, prun e [AMain; AMain; AMain] (par_init e c g pp) = Some s /\ p_main s = MOutOfBounds) /\
  (simOn c = true -> simulationsToStart e c = maxSims (sim c)).
Proof.
  intros HF HSS HNE. destruct (nthreads_ge2 _ _ HF) as (H2 & _ & _).
  unfold enough_threads in HNE.
  assert (K : nthreads (exec c) = 2%N /\ runAlternatingChecker (exec c) = true /\ runConstructionChecker (exec c) = true /\
   runZXChecker (exec c) && e_transformable e = true).
  { unfold nb in HNE. destruct (runAlternatingChecker (exec c)), (runConstructionChecker (exec c)), (runZXChecker (exec c) && e_transformable e); 
      try (exfalso; apply HNE; lia). repeat split; auto. lia. }
  destruct K as (K1 & K2 & K3 & K4). pose proof K4 as K5. apply andb_true_iff in K4. destruct K4 as [K4 K6].
  assert (XL : exact_launches e c = [KAlt; KCon; KZX]).
  { unfold exact_launches, zxOn. now rewrite K2, K3, K5. }
  assert (ET : effectiveThreads e c = 2%N).
  { unfold effectiveThreads. rewrite tasks_eq, XL, K1 by assumption. cbn [length]. lia. }
  split; [auto|]. split.
  - assert (ZA : zx_alone_unsupported e c = false) by (unfold zx_alone_unsupported; rewrite K6, andb_false_r; reflexivity).
    unfold par_init. rewrite ET, ZA. unfold launches. rewrite XL. cbn. eexists. split; reflexivity.
  - intros SO. unfold simulationsToStart. rewrite SO, ET, XL. cbn [length].
    change (N.min ((2 + two64 - 3) mod two64) (maxSims (sim c)) = maxSims (sim c)).
    change ((2 + two64 - 3) mod two64)%N with (two64 - 1)%N. unfold sane_sims, two64 in *. lia.
Qed.

(** *** cancellation *)
Theorem cancel_reaches e c g pp s : sane_sims c -> enough_threads e c -> reachable e c g pp s -> p_main s = MEnd ->
  forall i x, nth_error (p_slots s) i = Some x ->
    (sl_w x = WRun -> sl_flag x = true /\ abort_step i s <> None) /\
    (sl_w x = WRead -> exists s', worker_step e i s = Some s' /\
        exists x', nth_error (p_slots s') i = Some x' /\ sl_w x' = WPush /\ sl_chk x' = sl_chk x).
Proof.
  intros H1 H2 HR EM i x Hx. pose proof (reachable_all _ _ _ _ _ H1 H2 HR) as [[FI FR FD FC] S L X EL].
  assert (LV : live s = true) by (unfold live; now rewrite EM).
  pose proof (inv_done _ _ _ FI) as HD. rewrite EM in HD. cbn in HD. specialize (HD ltac:(discriminate)).
  assert (Hi : (i < length (p_slots s))%nat) by (apply nth_error_Some; congruence).
  pose proof (inv_slots _ _ _ FI _ _ Hx) as [[Hlt (k & Hk & (AA & B & C & D))]|[_ ->]]; [|split; discriminate].
  split; intros Ew.
  - assert (Hf : sl_flag x = true) by (apply C; auto; unfold phase_signal; now rewrite EM). split; [exact Hf|].
    rewrite Ew in D. destruct D as ((ck & Dc & _) & _).
    unfold abort_step. rewrite LV, Hx, Ew, Dc, Hf. cbn. discriminate.
  - unfold worker_step. rewrite LV, Hx, Ew, HD. cbn [negb]. eexists. split; [reflexivity|].
    exists (slot_w WPush x). simp. split; [eapply upd_same; eauto|]. split; reflexivity.
Qed.

(** before the decision, nobody is cancelled; in particular not after an exception *)
Theorem no_cancel_after_exception e c g pp s : sane_sims c -> enough_threads e c -> reachable e c g pp s -> p_main s = MUnwind ->
  p_done s = false /\ forall i, abort_step i s = None.
Proof.
  intros H1 H2 HR EM. pose proof (reachable_all _ _ _ _ _ H1 H2 HR) as [[FI FR FD FC] S L X EL].
  pose proof (inv_done _ _ _ FI) as HD. rewrite EM in HD. cbn in HD. split; [exact HD|].
  intros i. unfold abort_step. destruct (live s); [|reflexivity]. cbn [negb].
  destruct (nth_error (p_slots s) i) as [x|] eqn:Hx; [|reflexivity].
  pose proof (inv_slots _ _ _ FI _ _ Hx) as [[Hlt (k & Hk & (AA & B & C & D))]|[_ ->]]; [|reflexivity].
  rewrite (B HD). destruct (sl_w x); try reflexivity. destruct (sl_chk x); reflexivity.
Qed.

(** *** starvation of the simulations *)
Theorem starved e c g pp s : sane_sims c -> simOn c = true ->
  nthreads (exec c) = N.of_nat (length (exact_launches e c)) -> reachable e c g pp s ->
  r_started (p_res s) = 0%N /\ r_performed (p_res s) = 0%N.
Proof.
  intros HSS SO HN HR.
  assert (HET : enough_threads e c).
  { unfold enough_threads. rewrite HN, exact_length. unfold zxOn. lia. }
  pose proof (reachable_all _ _ _ _ _ HSS HET HR) as A. pose proof A as [[FI FR FD FC] S L X EL].
  assert (NS : nsim (launches e c) = O).
  { rewrite launches_nsim, toStart_eq by assumption. unfold effectiveThreads. rewrite HN. lia. }
  destruct HR as (acts & H). 
  assert (P : All e c g s /\ (r_started (p_res s) = 0%N /\ r_performed (p_res s) = 0%N)); [|tauto].
  revert H. eapply (prun_inv (fun s => All e c g s /\ (r_started (p_res s) = 0%N /\ r_performed (p_res s) = 0%N))).
  2:{ split; [apply (reachable_all e c g pp); auto; exists []; reflexivity|]. split; reflexivity. }
  intros a s1 s2 [A1 [E1 E2]] H. pose proof (all_step _ _ _ _ _ _ A1 H) as A2. split; [exact A2|].
  assert (KIN : forall k, In k (launches e c) -> k <> KSim).
  { intros k Hk ->. unfold nsim in NS. assert (In KSim (filter is_simk (launches e c))) by (apply filter_In; auto).
    destruct (filter is_simk (launches e c)); [contradiction|discriminate]. }
  pose proof (a_full _ _ _ _ A1) as [FI1 FR1 _ FC1].
  assert (HWK : forall i, (worker_step e i s1 = Some s2 \/ abort_step i s1 = Some s2) -> r_started (p_res s2) = 0%N /\ r_performed (p_res s2) = 0%N).
  { intros i HW. apply worker_shape in HW. destruct HW as [->|(x & x' & _ & _ & _ & _ & _ & _ & _ & -> & _)]; auto. }
  destruct a; cbn in H; [| |eauto|eauto].
  - unfold main_step in H. destruct (p_main s1) as [[|k rest]| | j | | | | | | |] eqn:EM; try discriminate.
    + injection H as <-. auto.
    + destruct (nth_error (p_slots s1) (p_next s1)); injection H as <-; simp; auto.
      assert (Hk : In k (launches e c)).
      { pose proof (inv_main _ _ _ FI1) as HM. rewrite EM in HM. rewrite HM. apply in_or_app. right. now left. }
      apply KIN in Hk. destruct k; auto; congruence.
    + destruct (p_queue s1) as [|i q] eqn:EQ; [discriminate|].
      destruct (nth_error (p_slots s1) i) as [x|] eqn:Hx; [|injection H as <-; auto].
      destruct (is_idle x) eqn:Hid; cbn [negb] in H; [|discriminate].
      destruct (sl_exn x) eqn:Exn; [injection H as <-; auto|].
      destruct (sl_chk x) as [ck|] eqn:Eck; [|injection H as <-; auto].
      destruct (inv_consumed _ _ _ _ _ _ _ FI1 EM EQ Hx Exn Eck) as (Hk & Hnat & Hil).
      apply nth_error_In, KIN in Hk.
      destruct (handle (p_cfg s1) (p_res s1) (k_kind ck) (k_eq ck) (k_stim ck)) as [r|r|r] eqn:EH; injection H as <-; simp.
      * rewrite (handle_started _ _ _ _ _ _ (or_intror EH)). split; [assumption|].
        unfold handle in EH. destruct (k_eq ck), (k_kind ck); try congruence;
        repeat match type of EH with context [if ?b then _ else _] => destruct b end; try discriminate EH; injection EH as <-; cbn; assumption.
      * rewrite (handle_started _ _ _ _ _ _ (or_introl EH)). split; [assumption|].
        unfold handle in EH. destruct (k_eq ck), (k_kind ck); try congruence;
        repeat match type of EH with context [if ?b then _ else _] => destruct b end; try discriminate EH; injection EH as <-; cbn; assumption.
      * exfalso. unfold handle in EH. destruct (k_eq ck), (k_kind ck); try congruence;
        repeat match type of EH with context [if ?b then _ else _] => destruct b end; discriminate EH.
    + destruct (nth_error (p_slots s1) j); injection H as <-; auto.
    + destruct (forallb is_idle (p_slots s1)); [|discriminate]. injection H as <-. auto.
    + destruct (forallb is_idle (p_slots s1)); [|discriminate]. injection H as <-. auto.
  - unfold timeout_step in H. destruct (p_main s1); try discriminate. destruct (p_queue s1); try discriminate.
    destruct (hasTimeout (p_cfg s1)); [|discriminate]. injection H as <-. auto.
Qed.
End Proofs.
