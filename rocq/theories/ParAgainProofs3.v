(** Lemmas for C84: a second run of simulations only waits forever. *)
From Coq Require Import String List Bool NArith QArith Arith Lia.
From Verif Require Import Criterion Config SeqFlow SeqSpec ParFlow ParSpec ParProofs ParProofs2 ParProofs3 ParProofs4 ParProofs5 ParProofs6 ParProofs7 ParAgain ParAgainSpec ParAgainProofs ParAgainProofs2.
Import ListNotations.
Local Open Scope list_scope.
Local Open Scope nat_scope.

Section Proofs.
Context {Stim Gen : Type}.
Notation env := (env Stim Gen).
Notation pst := (pst Stim Gen).
Notation slot := (slot Stim).
Implicit Types (e : env) (s : pst) (c : config) (x : slot) (g : Gen).

Ltac simp := cbn [set_main set_next set_pres set_slot set_queue set_pgen add_log begin_signal set_pdone
   p_cfg p_slots p_queue p_done p_main p_next p_res p_gen p_log phase_signal] in *.

(** *** every schedule is finite *)
Lemma again_measure e a s s' : astep e a s = Some s' -> measure s' < measure s.
Proof.
  destruct a as [| |i|i]; cbn [astep].
  - exact (measure_step e AMain s s').
  - exact (measure_step e ATimeout s s').
  - intros H. pose proof H as H0. unfold again_worker in H. destruct (live s) eqn:EL; cbn [negb] in H; [|discriminate].
    destruct (nth_error (p_slots s) i) as [x|] eqn:Ex; [|discriminate].
    assert (U : forall x', wweight (sl_w x') < wweight (sl_w x) -> measure (set_slot i x' s) < measure s).
    { intros x' Hw. unfold measure. simp. rewrite upd_length. pose proof (sumw_upd _ _ _ x' Ex). lia. }
    destruct (sl_w x) eqn:Ew; try (apply (measure_worker e i); destruct (sl_chk x); exact H).
    + destruct (sl_chk x) as [ck|]; [|now apply (measure_worker e i)].
      destruct (k_kind ck); [now apply (measure_worker e i)| | |]; injection H as <-; pose proof (live_weight s EL); unfold measure; simp; cbn [mweight]; lia.
    + destruct (sl_chk x) as [ck|]; [|now apply (measure_worker e i)].
      destruct (p_done s); [now apply (measure_worker e i)|]. destruct (sl_flag x); [|now apply (measure_worker e i)].
      destruct (stopped_run e ck); injection H as <-; apply U; cbn; lia.
  - exact (measure_step e (AAbort i) s s').
Qed.
Theorem again_finite e acts s s' : arun e acts s = Some s' -> length acts + measure s' <= measure s.
Proof.
  revert s. induction acts as [|a acts IH]; cbn; intros s H; [injection H as <-; lia|].
  destruct (astep e a s) as [s1|] eqn:E; [|discriminate]. apply again_measure in E. apply IH in H. lia.
Qed.
Lemma sumw_idle l : sumw (map (@old_slot Stim) l) = 0.
Proof. induction l as [|o l IH]; cbn; auto. Qed.
Theorem again_bounded e c l r g acts s : arun e acts (par_again e c l r g) = Some s ->
  length acts <= 8 * length (launches e c) + N.to_nat (effectiveThreads e c) + 5 + 8 * N.to_nat (maxSims (sim c)).
Proof.
  intros H. apply again_finite in H. enough (measure (par_again e c l r g) <= 8 * length (launches e c) + N.to_nat (effectiveThreads e c) + 5 + 8 * N.to_nat (maxSims (sim c))) by lia.
  unfold measure, par_again. simp. rewrite sumw_idle, map_length, resize_length, par_cfg_sim. cbn [set_eq r_started length].
  destruct (zx_alone_unsupported e c); cbn [mweight]; lia.
Qed.

(** *** simulations only, on checkers that have been told to stop *)
Definition good (q : criterion) : Prop := q = Equivalent \/ q = EquivalentUpToPhase.
Definition HangSlot x : Prop :=
  sl_exn x = false /\ sl_flag x = true /\ sl_w x <> WRun /\ (forall k, sl_w x = WStart k -> k = KSim) /\
  exists ck, sl_chk x = Some ck /\ k_kind ck = KSim /\ good (k_eq ck).
Record HangInv s : Prop := mkHang {
  h_done : p_done s = false;
  h_timeout : hasTimeout (p_cfg s) = false;
  h_perf : (maxSims (sim (p_cfg s)) <= r_performed (p_res s))%N;
  h_start : (maxSims (sim (p_cfg s)) <= r_started (p_res s))%N;
  h_slots : forall i x, nth_error (p_slots s) i = Some x -> HangSlot x;
  h_queue : forall i, In i (p_queue s) -> i < length (p_slots s);
  h_main : p_main s = MLoop \/ exists ks, p_main s = MLaunch ks /\ (forall k, In k ks -> k = KSim) /\ p_next s + length ks <= length (p_slots s) }.

Lemma hang_handle c (r : results Stim) q st : good q -> (maxSims (sim c) <= r_performed r)%N -> (maxSims (sim c) <= r_started r)%N ->
  exists r', handle c r KSim q st = Continue r' /\ (maxSims (sim c) <= r_performed r')%N /\ (maxSims (sim c) <= r_started r')%N.
Proof.
  intros HQ H1 H2.
  set (r1 := set_counts (r_started r) (r_performed r + 1)%N r).
  set (r2 := if is_ce (r_eq r1) NoInformation then set_eq ProbablyEquivalent r1 else r1).
  exists r2.
  assert (P : r_performed r2 = (r_performed r + 1)%N) by (unfold r2; destruct (is_ce _ _); reflexivity).
  assert (Q : r_started r2 = r_started r) by (unfold r2; destruct (is_ce _ _); reflexivity).
  split; [|rewrite P, Q; lia].
  assert (E : handle c r KSim q st = if simulationsFinished c r2 then
            if onlySimulationCheckerConfigured c then Stop r2
            else if is_ce (r_eq r2) ProbablyNotEquivalent then Stop (set_eq NoInformation r2)
            else Continue r2
          else if N.ltb (r_started r2) (maxSims (sim c))
          then Restart (set_counts (r_started r2 + 1) (r_performed r2) r2)
          else Continue r2) by (destruct HQ as [-> | ->]; reflexivity).
  rewrite E. unfold simulationsFinished. rewrite P, Q.
  destruct (N.eqb_spec (r_performed r + 1) (maxSims (sim c))); [lia|].
  destruct (N.ltb_spec (r_started r) (maxSims (sim c))); [lia|reflexivity].
Qed.
Lemma hang_step e a s s' : HangInv s -> astep e a s = Some s' -> HangInv s'.
Proof.
  intros [ID IT IP IS IL IQ IM] H.
  assert (U : forall i x y, nth_error (p_slots s) i = Some x -> HangSlot y -> forall j z, nth_error (upd (p_slots s) i y) j = Some z -> HangSlot z).
  { intros i x y Hx Hy j z Hz. apply upd_inv in Hz. destruct Hz as [(_ & -> & _)|[_ Hz]]; [assumption|eapply IL; eauto]. }
  assert (W : forall j, again_worker e j s = Some s' \/ abort_step j s = Some s' -> HangInv s').
  { intros j HH. destruct (again_moves _ _ _ _ HH) as (EL & x & Hx & HM).
    destruct (IL _ _ Hx) as (A1 & A2 & A3 & A4 & ck & A5 & A6 & A7).
    assert (NT : s' <> set_main MTerminated s).
    { intros E. destruct HH as [HH|HH].
      - unfold again_worker in HH. rewrite EL, Hx, A5, A2, A6, ID in HH. cbn [negb] in HH. unfold worker_step in HH. rewrite EL, Hx, A5 in HH. cbn [negb] in HH.
        unfold stopped_run in HH. rewrite A6 in HH.
        destruct (sl_w x); try discriminate; try (injection HH as HH; rewrite <- HH in E; apply (f_equal (@p_main _ _)) in E; simp; destruct IM as [M|(? & M & _)]; rewrite M in E; discriminate).
        destruct (e_gen e (p_gen s)) as [[? ?]|]; [|discriminate]. injection HH as HH; rewrite <- HH in E; apply (f_equal (@p_main _ _)) in E; simp; destruct IM as [M|(? & M & _)]; rewrite M in E; discriminate.
      - unfold abort_step in HH. rewrite EL, Hx in HH. cbn [negb] in HH. destruct (sl_w x); try discriminate. congruence. }
    destruct HM as [E|[(E & d & B1 & B2 & B3)|(x' & M & E & E1 & E2 & E3 & E4 & E5 & _ & E6)]]; [destruct (NT E)|congruence|].
    split.
    - congruence.
    - congruence.
    - now rewrite E1, E5.
    - now rewrite E1, E5.
    - rewrite E. eapply U; [exact Hx|]. rewrite ID in M.
      destruct M; try congruence; unfold HangSlot; cbn [slot_w sl_chk sl_flag sl_w sl_exn] in *.
      + assert (k = KSim) by (now apply A4). subst k. repeat split; auto; try discriminate. exists ck. auto.
      + assert (ck0 = ck) by congruence. subst ck0. repeat split; auto; try discriminate. eexists. split; [reflexivity|]. split; assumption.
      + assert (ck0 = ck) by congruence. subst ck0. unfold stopped_run in H4. rewrite A6 in H4. injection H4 as <-. repeat split; auto; try discriminate. exists ck. auto.
      + assert (ck0 = ck) by congruence. subst ck0. unfold stopped_run in H4. rewrite A6 in H4. discriminate.
      + destruct H2; congruence.
      + repeat split; auto; try discriminate. exists ck. auto.
    - rewrite E, upd_length. destruct E6 as [-> | ->]; [assumption|]. intros i Hi. apply in_app_or in Hi. destruct Hi as [Hi|[<-|[]]]; [auto|]. apply nth_error_Some. congruence.
    - rewrite E3, E4, E, upd_length. exact IM. }
  destruct a as [| |j|j]; cbn in H.
  - unfold main_step in H. destruct IM as [M|(ks & M & MK & ML)]; rewrite M in H.
    + destruct (p_queue s) as [|i q] eqn:EQ; [discriminate|].
      assert (Hi : i < length (p_slots s)) by (apply IQ; now left).
      destruct (nth_error (p_slots s) i) as [x|] eqn:Ex; [|apply nth_error_None in Ex; lia].
      destruct (negb (is_idle x)); [discriminate|]. destruct (IL _ _ Ex) as (A1 & A2 & A3 & A4 & ck & A5 & A6 & A7).
      rewrite A1, A5, A6 in H. destruct (hang_handle (p_cfg s) (p_res s) (k_eq ck) (k_stim ck) A7 IP IS) as (r' & EH & P1 & P2). rewrite EH in H.
      injection H as <-. split; simp; auto. intros j Hj. apply IQ. now right.
    + destruct ks as [|k ks].
      * injection H as <-. split; simp; auto.
      * destruct (nth_error (p_slots s) (p_next s)) as [x|] eqn:Ex; [|apply nth_error_None in Ex; cbn in ML; lia].
        injection H as <-. assert (k = KSim) by (apply MK; now left). subst k. split; simp; auto.
        -- cbn. lia.
        -- eapply U; [exact Ex|]. destruct (IL _ _ Ex) as (A1 & A2 & A3 & A4 & ck & A5 & A6 & A7).
           unfold HangSlot; cbn. repeat split; auto; try discriminate. { intros k E. now injection E as <-. } exists ck. auto.
        -- now rewrite upd_length.
        -- right. exists ks. rewrite upd_length. cbn in ML. repeat split; [|lia]. intros k Hk. apply MK. now right.
  - unfold timeout_step in H. destruct (p_main s); try discriminate. destruct (p_queue s); try discriminate. rewrite IT in H. discriminate.
  - eapply W; eauto.
  - eapply W; eauto.
Qed.
Theorem sims_hang e c (l : list (left_over Stim)) r g s :
  zx_alone_unsupported e c = false -> hasTimeout c = false ->
  length (launches e c) <= N.to_nat (effectiveThreads e c) <= length l ->
  (forall k, In k (launches e c) -> k = KSim) ->
  (maxSims (sim c) <= r_performed r)%N -> (maxSims (sim c) <= r_started r)%N ->
  (forall o, In o l -> exists ck, o = (Some ck, true) /\ k_kind ck = KSim /\ good (k_eq ck)) ->
  reached_again e c l r g s -> HangInv s.
Proof.
  intros Z T [L1 L2] K P S HL [acts H]. refine (arun_inv HangInv e acts (hang_step e) _ _ _ H). unfold par_again. split; simp.
  - exact Z.
  - destruct (par_exec_flags e c) as (_ & _ & _ & ->). exact T.
  - rewrite par_cfg_sim. exact P.
  - rewrite par_cfg_sim. exact S.
  - intros i x Hx. assert (Hi : i < N.to_nat (effectiveThreads e c)).
    { rewrite <- (resize_length (N.to_nat (effectiveThreads e c)) l), <- (map_length old_slot). apply nth_error_Some. congruence. }
    rewrite nth_error_map, (resize_nth _ _ _ Hi) in Hx. destruct (nth_error l i) as [o|] eqn:Eo; [|apply nth_error_None in Eo; lia].
    destruct (HL o (nth_error_In _ _ Eo)) as (ck & -> & B1 & B2). cbn in Hx. injection Hx as <-. unfold HangSlot; cbn. repeat split; try discriminate. exists ck. auto.
  - intros i [].
  - rewrite Z. right. exists (launches e c). rewrite map_length, resize_length. repeat split; auto.
Qed.
Lemma hang_live s : HangInv s -> ~ finished s.
Proof. intros [_ _ _ _ _ _ [M|(ks & M & _)]]; unfold finished; rewrite M; auto. Qed.

(** *** what a run of simulations only leaves behind when nothing has been refuted *)
Definition waiting (m : mpc) : bool := match m with MLoop | MLaunch _ => true | _ => false end.
Definition passed x : Prop := sl_w x = WIdle /\ exists ck, sl_chk x = Some ck /\ k_kind ck = KSim /\ good (k_eq ck).
Definition PassInv s : Prop :=
  (waiting (p_main s) = true -> forall i x, i < p_next s -> nth_error (p_slots s) i = Some x -> sl_w x = WIdle -> ~ In i (p_queue s) -> passed x) /\
  (told (p_main s) = true -> r_eq (p_res s) <> NotEquivalent -> forall i x, nth_error (p_slots s) i = Some x -> passed x).

Lemma only_sim_launches e c k : onlySimulationCheckerConfigured c = true -> In k (launches e c) -> k = KSim.
Proof.
  intros HO HK. unfold onlySimulationCheckerConfigured in HO. rewrite !andb_true_iff, !negb_true_iff in HO.
  destruct HO as (((HO1 & HO2) & HO3) & HO4). apply in_launches in HK. destruct k; auto; unfold zxOn in HK; try (rewrite HO4 in HK; discriminate); congruence.
Qed.
Lemma pass_step e c g a s s' : onlySimulationCheckerConfigured c = true -> hasTimeout c = false -> All e c g s -> PassInv s -> pstep e a s = Some s' -> PassInv s'.
Proof.
  intros HO HT A [P1 P2] H. pose proof A as [[FI FR FD FC] FS FL FX LEN]. pose proof FI as [iL iN iS iQ iND iD iM].
  assert (KS : forall i k, nth_error (launches e c) i = Some k -> k = KSim).
  { intros i k Hk. apply (only_sim_launches e c k HO). eapply nth_error_In; eauto. }
  assert (W : forall j, worker_step e j s = Some s' \/ abort_step j s = Some s' -> PassInv s').
  { intros j HH. apply worker_shape in HH. destruct HH as [->|(x & x' & Hx & Hw & Hsl & E1 & E2 & E3 & E4 & E5 & E6 & Hq & E7)].
    { split; simp; discriminate. }
    assert (EM : p_main s' = p_main s) by congruence. assert (EN : p_next s' = p_next s) by congruence. assert (ER : p_res s' = p_res s) by congruence.
    split; rewrite EM, ?EN, ?ER.
    - intros HW i y Hi Hy Hy' Hn. rewrite Hsl in Hy. apply upd_inv in Hy. destruct Hy as [(-> & -> & _)|[N Hy]].
      + exfalso. destruct Hq as [[_ Hq]|[Hq _]]; [congruence|]. apply Hn. rewrite Hq. apply in_or_app. right. now left.
      + apply (P1 HW i); auto. intros Hin. apply Hn. destruct Hq as [[-> _]|[-> _]]; [assumption|]. apply in_or_app. now left.
    - intros HW HR. exfalso. apply Hw. exact (proj1 (P2 HW HR _ _ Hx)). }
  destruct a as [| |j|j]; cbn in H.
  - unfold main_step in H. destruct (p_main s) as [[|k ks]| | j | | | | | | |] eqn:EM; try discriminate.
    + injection H as <-. split; simp; [|discriminate]. intros _. now apply P1.
    + destruct (nth_error (p_slots s) (p_next s)) as [y|] eqn:Ey; injection H as <-; split; simp; try discriminate.
      intros _ i x Hi Hx Hw Hn. apply upd_inv in Hx. destruct Hx as [(-> & -> & _)|[N Hx]]; [discriminate|]. apply (P1 eq_refl i); auto. lia.
    + destruct (p_queue s) as [|i q] eqn:EQ; [discriminate|].
      destruct (nth_error (p_slots s) i) as [x|] eqn:Ex; [|injection H as <-; split; simp; discriminate].
      destruct (negb (is_idle x)) eqn:EI; [discriminate|]. apply negb_false_iff in EI.
      destruct (sl_exn x) eqn:EE; [injection H as <-; split; simp; discriminate|].
      destruct (sl_chk x) as [ck|] eqn:Ec; [|injection H as <-; split; simp; discriminate].
      destruct (inv_consumed _ _ _ _ _ _ _ FI EM EQ Ex EE Ec) as (HK & HN & HI). pose proof (KS _ _ HK) as EK. rewrite EK in *.
      assert (IW : sl_w x = WIdle) by (unfold is_idle in EI; destruct (sl_w x); congruence).
      assert (NQ : ~ In i q) by (now inversion iND).
      destruct (criterion_eqb (k_eq ck) NotEquivalent) eqn:QN.
      { assert (E : k_eq ck = NotEquivalent) by (destruct (k_eq ck); try discriminate; reflexivity). rewrite E in H. cbn [handle] in H. injection H as <-. split; simp; [discriminate|].
        intros _ HR. exfalso. apply HR. reflexivity. }
      destruct (nonref_of e (k_stim ck) (k_eq ck) HN) as (y & _ & _ & HG). { intros E. rewrite E in QN. discriminate. }
      assert (PX : passed x) by (split; [assumption|exists ck; auto]).
      rewrite (handle_sim_ok _ _ _ _ HG) in H. cbn zeta in H.
      match type of H with context [simulationsFinished _ ?r] => set (r2 := r) in * end.
      assert (HP2 : r_performed r2 = (r_performed (p_res s) + 1)%N) by (unfold r2; destruct (is_ce _ _); reflexivity).
      assert (CN : onlySimulationCheckerConfigured (p_cfg s) = true).
      { rewrite FC. pose proof HO as HO'. unfold onlySimulationCheckerConfigured in HO' |- *. destruct (par_exec_flags e c) as (E1 & E2 & E3 & _).
        rewrite !andb_true_iff, !negb_true_iff in HO'. destruct HO' as (((O1 & O2) & O3) & O4). rewrite E1, E2, E3, O1, O3.
        assert (SO : simOn c = true).
        { destruct (in_launches e c KSim) as [S _]; [|exact S]. rewrite <- EK. eapply nth_error_In. rewrite EK. exact HK. }
        rewrite SO. unfold par_cfg. destruct (zx_alone_unsupported e c); cbn; rewrite O4; reflexivity. }
      destruct (simulationsFinished (p_cfg s) r2) eqn:SF.
      * rewrite CN in H. injection H as <-. split; simp; [discriminate|]. intros _ _ j z Hz.
        unfold simulationsFinished in SF. apply N.eqb_eq in SF. rewrite HP2 in SF.
        destruct FR as [_ _ RP]. rewrite EM in RP. cbn [early] in RP. destruct RP as (_ & R1 & R2 & _).
        assert (OU : outst (launches e c) s <= 1) by lia.
        assert (BI : busy (launches e c) s i = true).
        { unfold busy, simslot. rewrite HK. cbn [is_simk andb]. rewrite EQ. cbn. now rewrite Nat.eqb_refl, orb_true_r. }
        assert (Jl : j < length (launches e c)) by (rewrite LEN; apply nth_error_Some; congruence).
        destruct (Nat.eq_dec j i) as [->|N]; [assert (z = x) by congruence; now subst z|].
        assert (BJ : busy (launches e c) s j = false).
        { destruct (busy (launches e c) s j) eqn:BJ; [exfalso|reflexivity]. unfold outst in OU.
          assert (Ii : In i (filter (busy (launches e c) s) (seq 0 (length (launches e c))))) by (apply filter_In; split; [apply in_seq; lia|assumption]).
          assert (Ij : In j (filter (busy (launches e c) s) (seq 0 (length (launches e c))))) by (apply filter_In; split; [apply in_seq; lia|assumption]).
          destruct (filter _ _) as [|a [|b t]]; cbn in OU; [destruct Ii|destruct Ii as [<-|[]], Ij as [<-|[]]; congruence|lia]. }
        destruct (nth_error (launches e c) j) as [k|] eqn:Ek; [|apply nth_error_None in Ek; lia].
        unfold busy, simslot in BJ. rewrite Ek, (KS _ _ Ek) in BJ. cbn [is_simk andb] in BJ. apply orb_false_iff in BJ. destruct BJ as [B1 B2].
        apply negb_false_iff in B1. unfold idle_at in B1. rewrite Hz in B1.
        apply (P1 eq_refl j z); auto.
        -- clear - iM iD EM Jl. rewrite ?EM in iM. destruct iM as [->|D]; [assumption|]. rewrite ?EM in iD. cbn in iD. congruence.
        -- unfold is_idle in B1. destruct (sl_w z); congruence.
        -- intros Hin. apply existsb_in in Hin. rewrite ?EQ in Hin. congruence.
      * assert (OTH : forall j z, j < p_next s -> nth_error (p_slots s) j = Some z -> sl_w z = WIdle -> ~ In j q -> passed z).
        { intros j z Hj Hz Hzw Hn. destruct (Nat.eq_dec j i) as [->|N]; [assert (z = x) by congruence; now subst z|].
          apply (P1 eq_refl j z); auto. intros [E|E]; [congruence|auto]. }
        destruct (N.ltb _ _); injection H as <-; split; simp; rewrite ?EM; try discriminate; intros _ j z Hj Hz Hzw Hn.
        -- apply upd_inv in Hz. destruct Hz as [(_ & -> & _)|[_ Hz]]; [discriminate|eauto].
        -- eauto.
    + destruct (nth_error (p_slots s) j) as [y|] eqn:Ey; injection H as <-; split; simp; try discriminate.
      * intros _ HR i x Hx. apply upd_inv in Hx. destruct Hx as [(-> & -> & _)|[_ Hx]]; [|eapply P2; eauto].
        destruct (P2 eq_refl HR _ _ Ey) as [Q1 Q2]. destruct (has_chk y); split; assumption.
      * intros _ HR. apply P2; auto.
    + destruct (forallb is_idle (p_slots s)); [|discriminate]. injection H as <-. destruct (forallb has_chk (p_slots s)); split; simp; try discriminate.
      intros _. apply P2; auto.
    + destruct (forallb is_idle (p_slots s)); [|discriminate]. injection H as <-. split; simp; discriminate.
  - unfold timeout_step in H. destruct (p_main s); try discriminate. destruct (p_queue s); try discriminate.
    rewrite FC in H. destruct (par_exec_flags e c) as (_ & _ & _ & E). rewrite E, HT in H. discriminate.
  - eapply W; eauto.
  - eapply W; eauto.
Qed.

Lemma reachable_pass e c g pp s : sane_sims c -> enough_threads e c -> onlySimulationCheckerConfigured c = true -> hasTimeout c = false ->
  reachable e c g pp s -> PassInv s.
Proof.
  intros Hs He HO HT R.
  assert (G : All e c g s /\ PassInv s); [|apply G].
  pose proof R as (acts & H).
  eapply (prun_inv (fun s => All e c g s /\ PassInv s)); [|split|exact H].
  - intros a t t' [A P] T. split; [eapply all_step; eauto|eapply pass_step; eauto].
  - apply (reachable_all e c g pp _ Hs He). exists []. reflexivity.
  - assert (Z : zx_alone_unsupported e c = false).
    { unfold zx_alone_unsupported. unfold onlySimulationCheckerConfigured in HO. rewrite !andb_true_iff, !negb_true_iff in HO. destruct HO as (_ & ->). reflexivity. }
    split; unfold par_init; simp; rewrite Z; [|discriminate]. intros _ i x Hi. lia.
Qed.

Lemma only_sim_again e c : onlySimulationCheckerConfigured c = true -> (0 < maxSims (sim c))%N ->
  let c2 := par_cfg e c in
  onlySimulationCheckerConfigured c2 = true /\ zx_alone_unsupported e c2 = false /\ effectiveThreads e c2 = effectiveThreads e c /\
  enough_threads e c /\ enough_threads e c2.
Proof.
  intros HO Hm. cbn zeta. unfold onlySimulationCheckerConfigured in HO. rewrite !andb_true_iff, !negb_true_iff in HO.
  destruct HO as (((O1 & O2) & O3) & O4). apply N.ltb_lt in Hm.
  assert (Z : zx_alone_unsupported e c = false) by (unfold zx_alone_unsupported; rewrite O4; reflexivity).
  assert (E : par_cfg e c = set_runs true false c).
  { unfold par_cfg. rewrite Z, O4. unfold simOn. rewrite O2, Hm. reflexivity. }
  rewrite E. unfold onlySimulationCheckerConfigured, zx_alone_unsupported, effectiveThreads, tasksToExecute, zxOn, simOn, enough_threads, set_runs. cbn.
  rewrite O1, O2, O3, O4. cbn. repeat split; lia.
Qed.

Lemma again_step_or_stuck e s : (exists a s', astep e a s = Some s') \/ again_stuck e s.
Proof.
  destruct (main_step s) as [s'|] eqn:EM; [left; exists AMain, s'; exact EM|].
  destruct (timeout_step s) as [s'|] eqn:ET; [left; exists ATimeout, s'; exact ET|].
  assert (W : forall n, (exists a s', astep e a s = Some s') \/ (forall i, i < n -> again_worker e i s = None /\ abort_step i s = None)).
  { induction n as [|n IH]; [right; intros; lia|]. destruct IH as [?|IH]; [now left|].
    destruct (again_worker e n s) as [s'|] eqn:E1; [left; exists (AWorker n), s'; exact E1|].
    destruct (abort_step n s) as [s'|] eqn:E2; [left; exists (AAbort n), s'; exact E2|]. right. intros i Hi.
    destruct (Nat.eq_dec i n) as [->|]; [auto|]. apply IH. lia. }
  destruct (W (length (p_slots s))) as [?|HW]; [now left|].
  right. intros [| |i|i]; cbn [astep]; auto.
  - destruct (lt_dec i (length (p_slots s))); [now apply HW|]. unfold again_worker. destruct (live s); [|reflexivity]. cbn [negb].
    destruct (nth_error (p_slots s) i) eqn:E; [|reflexivity]. exfalso; apply n; apply nth_error_Some; congruence.
  - destruct (lt_dec i (length (p_slots s))); [now apply HW|]. unfold abort_step. destruct (live s); [|reflexivity]. cbn [negb].
    destruct (nth_error (p_slots s) i) eqn:E; [|reflexivity]. exfalso; apply n; apply nth_error_Some; congruence.
Qed.
Lemma again_completes e s : exists acts s', arun e acts s = Some s' /\ again_stuck e s'.
Proof.
  remember (measure s) as n eqn:En. revert s En. induction n as [n IH] using (well_founded_induction lt_wf). intros s En.
  destruct (again_step_or_stuck e s) as [(a & s' & H)|H].
  - pose proof (again_measure _ _ _ _ H). destruct (IH (measure s') ltac:(lia) s' eq_refl) as (acts & s2 & H2 & HS).
    exists (a :: acts), s2. split; [|assumption]. cbn. now rewrite H.
  - exists [], s. auto.
Qed.
Lemma arun_app e l1 l2 s : arun e (l1 ++ l2) s = match arun e l1 s with Some t => arun e l2 t | None => None end.
Proof. revert s. induction l1 as [|a l1 IH]; intros s; [reflexivity|]. cbn. destruct (astep e a s); [apply IH|reflexivity]. Qed.

Theorem second_hangs e c g pp s0 : sane_sims c -> onlySimulationCheckerConfigured c = true -> (0 < maxSims (sim c))%N -> hasTimeout c = false ->
  par_returned e c g pp s0 -> r_eq (p_res s0) <> NotEquivalent ->
  forall s, next_run e (p_cfg s0) s0 s -> ~ finished s /\ exists acts s', arun e acts s = Some s' /\ again_stuck e s' /\ ~ finished s'.
Proof.
  intros Hs HO Hm HT [R HM] HQ.
  destruct (only_sim_again e c HO Hm) as (C1 & C2 & C3 & He & C5).
  pose proof (reachable_all _ _ _ _ _ Hs He R) as A. pose proof (f_cfg _ _ _ _ (a_full _ _ _ _ A)) as FC. rewrite FC.
  destruct (c04_only_sim _ _ _ _ A (returned_decided _ HM) HO Hm HT HQ) as [E1 _].
  destruct (c04_counts _ _ _ _ A (returned_decided _ HM)) as (E2 & E3 & _).
  pose proof (reachable_pass _ _ _ _ _ Hs He HO HT R) as [_ PI].
  assert (HS2 : sane_sims (par_cfg e c)) by (unfold sane_sims; now rewrite par_cfg_sim).
  assert (G : forall s, next_run e (par_cfg e c) s0 s -> ~ finished s).
  { intros s RS. apply hang_live. refine (sims_hang e (par_cfg e c) (left_by s0) (p_res s0) (p_gen s0) s C2 _ _ _ _ _ _ RS).
    - destruct (par_exec_flags e c) as (_ & _ & _ & ->). exact HT.
    - rewrite (launches_fill _ _ HS2 C5). split; [lia|]. rewrite C3. unfold left_by. rewrite map_length, <- (a_len _ _ _ _ A), (launches_fill _ _ Hs He). lia.
    - intros k. now apply only_sim_launches.
    - rewrite par_cfg_sim. lia.
    - rewrite par_cfg_sim. lia.
    - intros o Ho. apply (fresh_reached _ _ _ _ _ Hs He) in R.
      destruct (left_behind _ _ _ _ _ _ R HM o Ho) as (ck & b & -> & HB).
      unfold left_by in Ho. apply in_map_iff in Ho. destruct Ho as (x & Ex & Hx). injection Ex as X1 X2.
      apply In_nth_error in Hx. destruct Hx as [i Hx]. destruct (PI ltac:(now rewrite HM) HQ i x Hx) as (_ & ck' & Y1 & Y2 & Y3).
      assert (ck' = ck) by congruence. subst ck'. exists ck. destruct HB as [->|HB]; [auto|]. exfalso. destruct Y3; congruence. }
  intros s RS. split; [now apply G|]. destruct (again_completes e s) as (acts & s' & H & HK). exists acts, s'. repeat split; auto.
  apply G. destruct RS as [a0 H0]. exists (a0 ++ acts). rewrite arun_app, H0. exact H.
Qed.
End Proofs.
