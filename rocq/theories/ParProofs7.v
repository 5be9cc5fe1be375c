(** Final form of the parallel-flow theorems. *)
From Coq Require Import String List Bool NArith QArith Arith Lia Permutation.
From Verif Require Import Criterion Config SeqFlow SeqSpec SeqProofs ParFlow ParSpec ParProofs ParProofs2 ParProofs3 ParProofs4 ParProofs5 ParProofs6.
Import ListNotations.
Local Open Scope list_scope.

Section Proofs.
Context {Stim Gen : Type}.
Notation env := (env Stim Gen).
Notation pst := (pst Stim Gen).
Implicit Types (e : env) (s : pst) (c : config) (g : Gen).

Lemma returned_decided s : p_main s = MReturned -> decided (p_main s) = true.
Proof. intros ->. reflexivity. Qed.

Lemma returned_all e c g pp s : sane_sims c -> enough_threads e c -> par_returned e c g pp s -> All e c g s /\ decided (p_main s) = true.
Proof. intros H1 H2 [HR HM]. split; [eapply reachable_all; eauto|now apply returned_decided]. Qed.

Lemma slots_le e c g pp s : reachable e c g pp s -> (N.of_nat (length (p_slots s)) <= nthreads (exec c))%N.
Proof.
  intros (acts & H).
  assert (L : length (p_slots s) = N.to_nat (effectiveThreads e c)).
  { revert H. eapply (prun_inv (fun s => length (p_slots s) = N.to_nat (effectiveThreads e c))).
    - intros a s1 s2 E H. apply slots_len_step in H. congruence.
    - unfold par_init. cbn. now rewrite repeat_length. }
  rewrite L. unfold effectiveThreads. lia.
Qed.

Lemma nsim_le (l : list kind) : (nsim l <= length l)%nat.
Proof. unfold nsim. induction l as [|k l IH]; cbn [filter length]; [lia|]. destruct (is_simk k); cbn [length]; lia. Qed.

Theorem pf_source e c g pp s : sane_sims c -> enough_threads e c -> par_returned e c g pp s ->
  let q := r_eq (p_res s) in
  (q = Equivalent \/ q = EquivalentUpToGlobalPhase -> from_exact_checker e c q \/ from_zx_checker e c q) /\
  (q = NotEquivalent -> from_exact_checker e c q \/ refuted_by_simulation e c g) /\
  q <> EquivalentUpToPhase.
Proof. intros H1 H2 H. destruct (returned_all _ _ _ _ _ H1 H2 H) as [A D]. exact (c02_source e c g s A D). Qed.

Theorem pf_sound (truth : criterion -> Prop) e c g pp s : sane_sims c -> enough_threads e c ->
  (runAlternatingChecker (exec c) = true -> e_canHandle e = true -> truth (mcrit (e_alt e))) ->
  (runConstructionChecker (exec c) = true -> truth (mcrit (e_con e))) ->
  (runZXChecker (exec c) = true -> e_transformable e = true ->
     zcrit (e_ancilla e) (e_zx e) = Equivalent \/ zcrit (e_ancilla e) (e_zx e) = EquivalentUpToGlobalPhase ->
     truth (zcrit (e_ancilla e) (e_zx e))) ->
  (forall y, drawn_from e g y -> e_sim e y = SNotEquivalent -> truth NotEquivalent) ->
  par_returned e c g pp s ->
  definitive (r_eq (p_res s)) -> truth (r_eq (p_res s)).
Proof. intros H1 H2 Ha Hc Hz Hs H. destruct (returned_all _ _ _ _ _ H1 H2 H) as [A D]. now apply (c02_sound truth e c g s A D). Qed.

Theorem pf_pe e c g pp s : sane_sims c -> enough_threads e c -> par_returned e c g pp s ->
  r_eq (p_res s) = ProbablyEquivalent ->
  exists l used rest, draws e g l (p_gen s) /\ Permutation l (used ++ rest) /\ used <> [] /\
    N.of_nat (length used) = r_performed (p_res s) /\ Forall (nonref e) used.
Proof. intros H1 H2 H. destruct (returned_all _ _ _ _ _ H1 H2 H) as [A D]. exact (c03_pe e c g s A D). Qed.

Theorem pf_pne e c g pp s : sane_sims c -> enough_threads e c -> par_returned e c g pp s ->
  r_eq (p_res s) = ProbablyNotEquivalent ->
  runZXChecker (exec c) = true /\ e_transformable e = true /\ e_zx e = ZFail /\ e_ancilla e = false.
Proof. intros H1 H2 H. destruct (returned_all _ _ _ _ _ H1 H2 H) as [A D]. exact (c03_pne e c g s A D). Qed.

Theorem pf_counts e c g pp s : sane_sims c -> enough_threads e c -> par_returned e c g pp s ->
  (r_performed (p_res s) <= r_started (p_res s))%N /\ (r_started (p_res s) <= maxSims (sim c))%N /\
  (r_started (p_res s) - r_performed (p_res s) <= N.of_nat (length (p_slots s)))%N /\
  (N.of_nat (length (p_slots s)) <= nthreads (exec c))%N.
Proof.
  intros H1 H2 H. destruct (returned_all _ _ _ _ _ H1 H2 H) as [A D]. destruct (c04_counts e c g s A D) as (E1 & E2 & E3).
  repeat split; auto.
  - rewrite <- (a_len _ _ _ _ A). pose proof (nsim_le (launches e c)). lia.
  - eapply slots_le, H.
Qed.

Theorem pf_only_sim e c g pp s : sane_sims c -> enough_threads e c -> par_returned e c g pp s ->
  onlySimulationCheckerConfigured c = true -> (0 < maxSims (sim c))%N -> hasTimeout c = false ->
  r_eq (p_res s) <> NotEquivalent ->
  r_performed (p_res s) = maxSims (sim c) /\ r_eq (p_res s) = ProbablyEquivalent.
Proof. intros H1 H2 H. destruct (returned_all _ _ _ _ _ H1 H2 H) as [A D]. exact (c04_only_sim e c g s A D). Qed.

Theorem pf_cex e c g pp s : sane_sims c -> enough_threads e c -> par_returned e c g pp s ->
  (r_cexIn (p_res s) = None /\ r_cexOut (p_res s) = None /\
    (r_eq (p_res s) = NotEquivalent -> from_exact_checker e c NotEquivalent)) \/
  (exists y, r_eq (p_res s) = NotEquivalent /\ simOn c = true /\ drawn_from e g y /\ e_sim e y = SNotEquivalent /\
     r_cexIn (p_res s) = (if storeCEXinput (sim c) then Some y else None) /\
     r_cexOut (p_res s) = (if storeCEXoutput (sim c) then Some y else None)).
Proof. intros H1 H2 H. destruct (returned_all _ _ _ _ _ H1 H2 H) as [A D]. exact (c05_cex e c g s A D). Qed.

Theorem pf_cex_consumed e c g pp s st : sane_sims c -> enough_threads e c -> par_returned e c g pp s ->
  In (KSim, NotEquivalent, st) (p_log s) ->
  exists y, st = Some y /\ r_eq (p_res s) = NotEquivalent /\ e_sim e y = SNotEquivalent /\
     r_cexIn (p_res s) = (if storeCEXinput (sim c) then Some y else None) /\
     r_cexOut (p_res s) = (if storeCEXoutput (sim c) then Some y else None).
Proof.
  intros H1 H2 H Hin. destruct (returned_all _ _ _ _ _ H1 H2 H) as [A D].
  destruct (decided_reason _ _ _ _ A D) as (r0 & log0 & HE & Hnat & _ & _ & _ & _ & HS).
  assert (N0 : ~ In (KSim, NotEquivalent, st) log0).
  { intros Hi. pose proof (er_entries _ _ _ HE) as HEE. rewrite Forall_forall in HEE. apply HEE in Hi. cbn in Hi.
    apply (proj1 Hi); reflexivity. }
  destruct HS as [Er El HT'| Er El E _ OZ' _|El CH Er|El Er|q El Hq Er|El Z E1 E2 Er|q El Hq OZ|y El Hy Er|y q El Hy Hq HP' OS Er|y q El Hy Hq HP' OS EP Er];
   rewrite El in Hin; try contradiction; (destruct Hin as [Hin|Hin]; [|contradiction]); try discriminate Hin.
  - injection Hin as <-. exists y. rewrite Er. cbn [r_eq r_cexIn r_cexOut]. rewrite (f_cfg _ _ _ _ (a_full _ _ _ _ A)), par_cfg_sim.
    repeat split; auto.
  - injection Hin as E1 _. destruct Hq; congruence.
  - injection Hin as E1 _. destruct Hq; congruence.
Qed.

Theorem pf_definitive e c g pp s : sane_sims c -> enough_threads e c -> par_returned e c g pp s -> hasTimeout c = false ->
  (runAlternatingChecker (exec c) = true \/ runConstructionChecker (exec c) = true) ->
  ~ (runZXChecker (exec c) = true /\ e_transformable e = true /\ e_zx e = ZFail /\ e_ancilla e = false) ->
  from_exact_checker e c (r_eq (p_res s)) \/
  (from_zx_checker e c (r_eq (p_res s)) /\ (r_eq (p_res s) = Equivalent \/ r_eq (p_res s) = EquivalentUpToGlobalPhase)) \/
  (r_eq (p_res s) = NotEquivalent /\ refuted_by_simulation e c g).
Proof. intros H1 H2 H. destruct (returned_all _ _ _ _ _ H1 H2 H) as [A D]. exact (c15_definitive e c g s A D). Qed.

Theorem pf_bounded e c g pp acts s : prun e acts (par_init e c g pp) = Some s ->
  (length acts <= 8 * length (launches e c) + N.to_nat (effectiveThreads e c) + 5 + 8 * N.to_nat (maxSims (sim c)))%nat.
Proof. intros H. apply schedules_finite in H. pose proof (measure_init e c g pp). lia. Qed.

Lemma finished_dec s : finished s \/ ~ finished s.
Proof. unfold finished. destruct (p_main s); auto. Qed.

Theorem pf_returns e c g pp s : choose_flow e c = FParallel -> sane_sims c -> enough_threads e c -> no_exceptions e c -> gen_supplies e g (maxSims (sim c)) ->
  ~ hang_condition e c g -> reachable e c g pp s -> stuck e s -> p_main s = MReturned.
Proof.
  intros HF H1 H2 HX HG HH HR HS. destruct (finished_dec s) as [D|D].
  - eapply finished_normal; eauto.
  - exfalso. apply HH. eapply waits_implies_hang; eauto. split; assumption.
Qed.

Theorem pf_hangs e c g pp : choose_flow e c = FParallel -> sane_sims c -> enough_threads e c -> no_exceptions e c ->
  hang_condition e c g ->
  (forall s, reachable e c g pp s -> ~ finished s) /\
  (forall s, reachable e c g pp s -> exists acts s', prun e acts s = Some s' /\ waits_forever e s').
Proof.
  intros HF H1 H2 HX HH.
  assert (A : forall s, reachable e c g pp s -> ~ finished s) by (intros; eapply hang_always; eauto).
  split; [exact A|]. intros s HR. destruct (completes e s) as (acts & s' & H & HS). exists acts, s'. split; [assumption|].
  split; [assumption|]. apply A. destruct HR as (a0 & H0). exists (a0 ++ acts).
  assert (AP : forall l1 l2 x, prun e (l1 ++ l2) x = match prun e l1 x with Some y => prun e l2 y | None => None end).
  { induction l1 as [|a l1 IH]; intros l2 x; [reflexivity|]. cbn. destruct (pstep e a x); [apply IH|reflexivity]. }
  rewrite AP, H0. exact H.
Qed.

Theorem pf_null e c g pp s : sane_sims c -> enough_threads e c -> reachable e c g pp s -> p_main s = MNullDeref ->
  exists k, In k (launches e c) /\ ctor_throws e c k = true.
Proof.
  intros H1 H2 HR HM. pose proof (reachable_all _ _ _ _ _ H1 H2 HR) as A. destruct (xi_null _ _ _ (a_exn _ _ _ _ A) HM) as (k & Hk & HC).
  exists k. split; [assumption|]. rewrite (f_cfg _ _ _ _ (a_full _ _ _ _ A)) in HC.
  unfold par_cfg in HC. destruct (zx_alone_unsupported e c); exact HC.
Qed.

(** once the flow has decided, no worker starts a checker any more *)
Theorem pf_no_new_run e c g pp s i s' : sane_sims c -> enough_threads e c -> reachable e c g pp s -> 
  decided (p_main s) = true -> worker_step e i s = Some s' ->
  forall j x', nth_error (p_slots s') j = Some x' -> sl_w x' = WRun ->
    exists x, nth_error (p_slots s) j = Some x /\ sl_w x = WRun.
Proof.
  intros H1 H2 HR HD H j x' Hx' Hw'. pose proof (reachable_all _ _ _ _ _ H1 H2 HR) as [[FI FR FD FC] S L X EL].
  pose proof (inv_done _ _ _ FI) as HDn. 
  assert (DN : live s = true -> p_done s = true).
  { intros HL. destruct (p_main s) eqn:EM; try discriminate; cbn in HDn; (apply HDn; discriminate) || exact HDn. }
  unfold worker_step in H. destruct (live s) eqn:EL'; cbn [negb] in H; [|discriminate]. specialize (DN eq_refl).
  destruct (nth_error (p_slots s) i) as [x|] eqn:Hx; [|discriminate].
  assert (G : forall y, sl_w y <> WRun -> forall t, nth_error (upd (p_slots s) i y) j = Some t -> sl_w t = WRun ->
     exists x, nth_error (p_slots s) j = Some x /\ sl_w x = WRun).
  { intros y Hy t Ht Hwt. destruct (Nat.eq_dec j i) as [->|Hj].
    - rewrite (upd_same _ _ _ _ Hx) in Ht. injection Ht as <-. contradiction.
    - rewrite upd_other in Ht by auto. eauto. }
  destruct (sl_w x) eqn:Ew; try discriminate.
  - destruct (sl_chk x).
    + injection H as <-. eapply G; [|exact Hx'|exact Hw']. destruct k; discriminate.
    + destruct (ctor_throws e (p_cfg s) k); [injection H as <-; eapply G; [|exact Hx'|exact Hw']; discriminate|].
      destruct k; try (injection H as <-; eapply G; [|exact Hx'|exact Hw']; discriminate).
      destruct (e_zx_perm_ok e); injection H as <-; [eapply G; [|exact Hx'|exact Hw']; discriminate|eauto].
  - destruct (e_gen e (p_gen s)) as [[y g']|]; [|discriminate]. destruct (sl_chk x); [|discriminate].
    injection H as <-. eapply G; [|exact Hx'|exact Hw']. discriminate.
  - injection H as <-. eapply G; [|exact Hx'|exact Hw']. rewrite DN. discriminate.
  - destruct (sl_chk x); [|discriminate]. destruct (k_kind _), (e_canHandle e); injection H as <-; (eapply G; [|exact Hx'|exact Hw']; discriminate).
  - injection H as <-. eapply G; [|exact Hx'|exact Hw']. discriminate.
Qed.
End Proofs.
