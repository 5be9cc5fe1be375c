(** Lemmas for C84. *)
From Coq Require Import String List Bool NArith QArith Arith Lia.
From Verif Require Import Criterion Config SeqFlow SeqSpec ParFlow ParSpec ParProofs ParProofs2 ParProofs3 ParProofs4 ParProofs5 ParProofs6 ParProofs7 ParAgain ParAgainSpec.
Import ListNotations.
Local Open Scope list_scope.
Local Open Scope nat_scope.

Section Proofs.
Context {Stim Gen : Type}.
Notation env := (env Stim Gen).
Notation pst := (pst Stim Gen).
Notation slot := (slot Stim).
Implicit Types (e : env) (s : pst) (c : config) (x : slot) (g : Gen).

Ltac simp := cbn [set_main set_next set_pres set_slot set_queue set_pgen add_log begin_signal set_pdone
   p_cfg p_slots p_queue p_done p_main p_next p_res p_gen p_log phase_signal] in *.

Definition next_pc (k : kind) : wpc := match k with KSim => WDraw | _ => WRead end.
(** what a worker can do with its slot *)
Inductive wmove e (done : bool) x : slot -> Prop :=
| m_old k ck : sl_w x = WStart k -> sl_chk x = Some ck -> wmove e done x (slot_w (next_pc k) x)
| m_refuse k : sl_w x = WStart k -> sl_chk x = None -> wmove e done x (mkSlot None false WPush true)
| m_new k : sl_w x = WStart k -> sl_chk x = None -> wmove e done x (mkSlot (Some (mkChecker k NoInformation None)) false (next_pc k) false)
| m_draw ck st : sl_w x = WDraw -> sl_chk x = Some ck -> k_kind ck = KSim -> drawable e st ->
    wmove e done x (mkSlot (Some (mkChecker (k_kind ck) (k_eq ck) (Some st))) (sl_flag x) WRead (sl_exn x))
| m_read_done : sl_w x = WRead -> done = true -> wmove e done x (slot_w WPush x)
| m_stopped ck k' : sl_w x = WRead -> sl_chk x = Some ck -> done = false -> sl_flag x = true -> stopped_run e ck = Some k' ->
    wmove e done x (mkSlot (Some k') true WPush (sl_exn x))
| m_stopped_refuse ck : sl_w x = WRead -> sl_chk x = Some ck -> done = false -> sl_flag x = true -> stopped_run e ck = None ->
    wmove e done x (mkSlot (Some ck) true WPush true)
| m_read : sl_w x = WRead -> done = false -> (sl_flag x = false \/ sl_chk x = None) -> wmove e done x (slot_w WRun x)
| m_run_refuse ck : sl_w x = WRun -> sl_chk x = Some ck -> k_kind ck = KAlt -> e_canHandle e = false ->
    wmove e done x (mkSlot (sl_chk x) (sl_flag x) WPush true)
| m_run ck : sl_w x = WRun -> sl_chk x = Some ck -> (k_kind ck = KAlt -> e_canHandle e = true) ->
    wmove e done x (mkSlot (Some (mkChecker (k_kind ck) (natural e (k_kind ck) (k_stim ck)) (k_stim ck))) (sl_flag x) WPush (sl_exn x))
| m_push : sl_w x = WPush -> wmove e done x (slot_w WIdle x)
| m_abort ck : sl_w x = WRun -> sl_chk x = Some ck -> sl_flag x = true ->
    wmove e done x (mkSlot (Some (mkChecker (k_kind ck) (match k_kind ck with KZX => NoInformation | _ => k_eq ck end) (k_stim ck))) true WPush (sl_exn x)).

Lemma again_moves e i s s' : again_worker e i s = Some s' \/ abort_step i s = Some s' ->
  live s = true /\ exists x, nth_error (p_slots s) i = Some x /\
  (s' = set_main MTerminated s \/
   (s' = set_main MNullDeref s /\ exists ck, sl_w x = WDraw /\ sl_chk x = Some ck /\ k_kind ck <> KSim) \/
   exists x', wmove e (p_done s) x x' /\ p_slots s' = upd (p_slots s) i x' /\ p_cfg s' = p_cfg s /\ p_done s' = p_done s /\ p_main s' = p_main s /\
     p_next s' = p_next s /\ p_res s' = p_res s /\ p_log s' = p_log s /\
     (p_queue s' = p_queue s \/ p_queue s' = p_queue s ++ [i])).
Proof.
  intros [H|H].
  - unfold again_worker in H. destruct (live s) eqn:EL; cbn [negb] in H; [|discriminate]. split; [reflexivity|].
    destruct (nth_error (p_slots s) i) as [x|] eqn:Ex; [|discriminate]. exists x. split; [reflexivity|].
    unfold worker_step in H. rewrite EL, Ex in H. cbn [negb] in H.
    destruct (sl_w x) as [|k| | | |] eqn:Ew.
    + destruct (sl_chk x); discriminate.
    + destruct (sl_chk x) as [ck|] eqn:Ec.
      * injection H as <-. right. right. eexists. split; [eapply m_old; eauto|]. simp. repeat split; auto.
      * destruct (ctor_throws e (p_cfg s) k).
        { injection H as <-. right. right. eexists. split; [eapply m_refuse; eauto|]. simp. repeat split; auto. }
        assert (N : set_slot i (mkSlot (Some (mkChecker k NoInformation None)) false (match k with KSim => WDraw | _ => WRead end) false) s = s' ->
           exists x', wmove e (p_done s) x x' /\ p_slots s' = upd (p_slots s) i x' /\ p_cfg s' = p_cfg s /\ p_done s' = p_done s /\ p_main s' = p_main s /\
             p_next s' = p_next s /\ p_res s' = p_res s /\ p_log s' = p_log s /\ (p_queue s' = p_queue s \/ p_queue s' = p_queue s ++ [i])).
        { intros <-. eexists. split; [eapply m_new; eauto|]. simp. repeat split; auto. }
        destruct k; try (injection H as H; right; right; apply N; exact H).
        destruct (e_zx_perm_ok e); [injection H as H; right; right; apply N; exact H|]. injection H as <-. now left.
    + destruct (sl_chk x) as [ck|] eqn:Ec; [|destruct (e_gen e (p_gen s)) as [[? ?]|]; discriminate].
      destruct (k_kind ck) eqn:Ek; try (injection H as <-; right; left; split; [reflexivity|exists ck; repeat split; congruence]).
      destruct (e_gen e (p_gen s)) as [[st g']|] eqn:Eg; [|discriminate]. injection H as <-. right. right. rewrite <- Ek.
      eexists. split; [eapply m_draw with (ck := ck); eauto; exists (p_gen s), g'; exact Eg|]. simp. repeat split; auto.
    + destruct (sl_chk x) as [ck|] eqn:Ec.
      * destruct (p_done s) eqn:Ed.
        { injection H as <-. right. right. eexists. split; [eapply m_read_done; eauto|]. simp. repeat split; auto. }
        destruct (sl_flag x) eqn:Ef.
        -- destruct (stopped_run e ck) as [k'|] eqn:Es; injection H as <-; right; right; eexists.
           ++ split; [eapply m_stopped; eauto|]. simp. repeat split; auto.
           ++ split; [eapply m_stopped_refuse; eauto|]. simp. repeat split; auto.
        -- injection H as <-. right. right. eexists. split; [eapply m_read; eauto|]. simp. repeat split; auto.
      * injection H as <-. right. right. destruct (p_done s) eqn:Ed; eexists; (split; [|simp; repeat split; auto]).
        -- eapply m_read_done; eauto.
        -- eapply m_read; eauto.
    + destruct (sl_chk x) as [ck|] eqn:Ec; [|discriminate]. right. right.
      destruct (k_kind ck) eqn:Ek.
      2: destruct (e_canHandle e) eqn:Eh.
      3:{ injection H as <-. eexists. split; [eapply m_run_refuse; eauto|]. simp. rewrite Ec. repeat split; auto. }
      all: injection H as <-; eexists; (split; [eapply m_run with (ck := ck); eauto; intros; congruence|simp; rewrite Ek; repeat split; auto]).
    + assert (HH : Some (set_queue (p_queue s ++ [i]) (set_slot i (slot_w WIdle x) s)) = Some s') by (destruct (sl_chk x); exact H).
      injection HH as <-. right. right. eexists. split; [eapply m_push; eauto|]. simp. repeat split; auto.
  - unfold abort_step in H. destruct (live s) eqn:EL; cbn [negb] in H; [|discriminate]. split; [reflexivity|].
    destruct (nth_error (p_slots s) i) as [x|] eqn:Ex; [|discriminate]. exists x. split; [reflexivity|].
    destruct (sl_w x) eqn:Ew; try discriminate. destruct (sl_chk x) as [ck|] eqn:Ec; [|discriminate].
    destruct (sl_flag x) eqn:Ef; [|discriminate]. injection H as <-. right. right. eexists. split; [eapply m_abort; eauto|]. simp. repeat split; auto.
Qed.

Lemma arun_inv (P : pst -> Prop) e acts : (forall a s s', P s -> astep e a s = Some s' -> P s') ->
  forall s s', P s -> arun e acts s = Some s' -> P s'.
Proof.
  intros HP. induction acts as [|a acts IH]; cbn; intros s s' Hs H; [now injection H as <-|].
  destruct (astep e a s) as [s1|] eqn:E; [|discriminate]. eapply IH; [|exact H]. eapply HP; eauto.
Qed.

(** *** a new manager: the same as ParFlow.v *)
Lemma astep_fresh e ks a s : Inv e ks s -> astep e a s = pstep e a s.
Proof.
  intros I. destruct a as [| |i|i]; cbn; try reflexivity. unfold again_worker.
  destruct (live s) eqn:EL; cbn [negb]; [|unfold worker_step; now rewrite EL].
  destruct (nth_error (p_slots s) i) as [x|] eqn:Ex; [|unfold worker_step; rewrite EL, Ex; reflexivity].
  destruct (inv_slots _ _ _ I i x Ex) as [(Hi & k & Hk & (A & B & C & D))|(Hi & ->)].
  - destruct (sl_w x) eqn:Ew; try (destruct (sl_chk x); reflexivity).
    + destruct D as (-> & _). destruct (sl_chk x) as [ck|] eqn:Ec; [|reflexivity]. now rewrite (A ck eq_refl).
    + destruct (sl_chk x) as [ck|] eqn:Ec; [|reflexivity]. destruct (p_done s) eqn:Ed; [reflexivity|]. now rewrite (B eq_refl).
  - reflexivity.
Qed.
Lemma again_nothing e c g pp : par_again e c [] (mkResults NoInformation 0 0 None None pp) g = par_init e c g pp.
Proof.
  unfold par_again, par_init, resize, set_eq. cbn [r_started r_performed r_cexIn r_cexOut r_preproc]. f_equal.
  rewrite firstn_nil. cbn [app length]. rewrite Nat.sub_0_r. induction (N.to_nat (effectiveThreads e c)); cbn; [reflexivity|]. now f_equal.
Qed.
Lemma fresh_same e c g pp acts : sane_sims c -> enough_threads e c -> arun e acts (par_init e c g pp) = prun e acts (par_init e c g pp).
Proof.
  intros Hs He.
  assert (G : forall acts s, reachable e c g pp s -> arun e acts s = prun e acts s).
  { induction acts0 as [|a l IH]; intros s R; [reflexivity|]. cbn.
    rewrite (astep_fresh e (launches e c)); [|apply (f_inv _ _ _ _ (reachable_full _ _ _ _ _ Hs He R))].
    destruct (pstep e a s) as [s1|] eqn:E; [|reflexivity]. apply IH. destruct R as [l0 R]. exists (l0 ++ [a]).
    clear -R E. revert R. generalize (par_init e c g pp). induction l0 as [|b l0 IH]; cbn; intros t R; [injection R as ->; now rewrite E|].
    destruct (pstep e b t); [|discriminate]. now apply IH. }
  apply G. exists []. reflexivity.
Qed.
Lemma fresh_reached e c g pp s : sane_sims c -> enough_threads e c ->
  reachable e c g pp s <-> reached_again e c [] (mkResults NoInformation 0 0 None None pp) g s.
Proof.
  intros Hs He. unfold reachable, reached_again. rewrite again_nothing. split; intros [acts H]; exists acts.
  - now rewrite fresh_same.
  - now rewrite fresh_same in H.
Qed.

(** *** a checker that was told to stop is not run again *)
Definition stays (ck ck' : checker Stim) : Prop := k_kind ck' = k_kind ck /\ (k_eq ck' = k_eq ck \/ (k_kind ck = KZX /\ k_eq ck' = NoInformation)).
Lemma stays_trans a b d : stays a b -> stays b d -> stays a d.
Proof. intros [A1 A2] [B1 B2]. split; [congruence|]. destruct A2 as [A2|[A2 A3]], B2 as [B2|[B2 B3]]; try (left; congruence); right; split; congruence. Qed.
Definition Stopped_at (ck : checker Stim) (i : nat) s : Prop :=
  exists x ck', nth_error (p_slots s) i = Some x /\ sl_chk x = Some ck' /\ sl_flag x = true /\ sl_w x <> WRun /\ stays ck ck'.

Lemma stopped_run_stays e ck k' : stopped_run e ck = Some k' -> stays ck k'.
Proof.
  unfold stopped_run. destruct (k_kind ck) eqn:E; [| destruct (e_canHandle e); [|discriminate] | |]; injection 1 as <-; split; cbn; auto.
Qed.
Lemma stopped_run_stim e ck k' : stopped_run e ck = Some k' -> k_stim k' = k_stim ck.
Proof.
  unfold stopped_run. destruct (k_kind ck) eqn:E; [| destruct (e_canHandle e); [|discriminate] | |]; injection 1 as <-; reflexivity.
Qed.
Lemma stopped_step e ck i a s s' : Stopped_at ck i s -> astep e a s = Some s' -> Stopped_at ck i s'.
Proof.
  intros (x & ck' & Hx & Hc & Hf & Hw & HS) H.
  assert (K : p_slots s' = p_slots s -> Stopped_at ck i s') by (intros E; exists x, ck'; rewrite E; auto).
  assert (U : forall j y, p_slots s' = upd (p_slots s) j y -> (j = i -> exists d, sl_chk y = Some d /\ sl_flag y = true /\ sl_w y <> WRun /\ stays ck' d) -> Stopped_at ck i s').
  { intros j y E HY. destruct (Nat.eq_dec j i) as [->|N].
    - destruct (HY eq_refl) as (d & D1 & D2 & D3 & D4). exists y, d. rewrite E, (upd_same _ _ _ _ Hx). repeat split; auto; eapply stays_trans; eauto.
    - exists x, ck'. rewrite E, upd_other; auto. }
  assert (W : forall j, again_worker e j s = Some s' \/ abort_step j s = Some s' -> Stopped_at ck i s').
  { intros j HH. destruct (again_moves _ _ _ _ HH) as (_ & y & Hy & [->|[(-> & _)|(y' & M & E & _)]]); [apply K; reflexivity|apply K; reflexivity|].
    apply (U j y' E). intros ->. rewrite Hx in Hy. injection Hy as <-.
    assert (SR : stays ck' ck') by (split; auto).
    destruct M; cbn [slot_w sl_chk sl_flag sl_w] in *; try congruence;
      try (match goal with HC : sl_chk x = Some ?d |- _ => rewrite Hc in HC; injection HC as <- end).
    - exists ck'. repeat split; auto. destruct k; discriminate.
    - eexists. split; [reflexivity|]. split; [exact Hf|]. split; [discriminate|]. split; cbn; auto.
    - exists ck'. repeat split; auto. discriminate.
    - exists k'. split; [reflexivity|]. split; [reflexivity|]. split; [discriminate|]. eapply stopped_run_stays; eauto.
    - exists ck'. repeat split; auto. discriminate.
    - destruct H2; congruence.
    - exists ck'. repeat split; auto. discriminate. }
  destruct a as [| |j|j]; cbn in H.
  - unfold main_step in H. destruct (p_main s) as [[|k ks]| | j | | | | | | |] eqn:EM; try discriminate.
    + injection H as <-. now apply K.
    + destruct (nth_error (p_slots s) (p_next s)) as [y|] eqn:Ey; injection H as <-; [|now apply K].
      eapply U; [reflexivity|]. intros E. rewrite E in Ey. assert (y = x) by congruence. subst y. cbn. exists ck'. repeat split; auto. discriminate.
    + destruct (p_queue s) as [|j q]; [discriminate|]. destruct (nth_error (p_slots s) j) as [y|] eqn:Ey; [|injection H as <-; now apply K].
      destruct (negb (is_idle y)); [discriminate|]. destruct (sl_exn y); [injection H as <-; now apply K|].
      destruct (sl_chk y) as [d|] eqn:Ed; [|injection H as <-; now apply K].
      destruct (handle (p_cfg s) (p_res s) (k_kind d) (k_eq d) (k_stim d)); injection H as <-; try now apply K.
      eapply U; [reflexivity|]. intros ->. assert (y = x) by congruence. subst y. cbn. exists ck'. repeat split; auto. discriminate.
    + destruct (nth_error (p_slots s) j) as [y|] eqn:Ey; injection H as <-; [|now apply K].
      eapply U; [reflexivity|]. intros ->. assert (y = x) by congruence. subst y. unfold has_chk. rewrite Hc. cbn. exists ck'. repeat split; auto.
    + destruct (forallb is_idle (p_slots s)); [|discriminate]. injection H as <-. now apply K.
    + destruct (forallb is_idle (p_slots s)); [|discriminate]. injection H as <-. now apply K.
  - unfold timeout_step in H. destruct (p_main s); try discriminate. destruct (p_queue s); try discriminate.
    destruct (hasTimeout (p_cfg s)); [|discriminate]. injection H as <-. now apply K.
  - eapply W; eauto.
  - eapply W; eauto.
Qed.

Lemma resize_nth n (l : list (left_over Stim)) i : i < n ->
  nth_error (resize n l) i = Some (match nth_error l i with Some o => o | None => (None, false) end).
Proof.
  intros H. unfold resize. destruct (nth_error l i) as [o|] eqn:E.
  - assert (i < length l) by (apply nth_error_Some; congruence). rewrite nth_error_app1 by (rewrite firstn_length; lia).
    rewrite <- E. clear -H. revert n H. induction l as [|h l IH] in i |- *; intros n H; [now destruct i, n|]. destruct n; [lia|]. destruct i; [reflexivity|]. cbn. apply IH. lia.
  - apply nth_error_None in E. rewrite nth_error_app2 by (rewrite firstn_length; lia). rewrite firstn_length.
    assert (G : forall m j, j < m -> nth_error (repeat (@None (checker Stim), false) m) j = Some (None, false)).
    { induction m as [|m IH]; intros j Hj; [lia|]. destruct j; [reflexivity|]. cbn. apply IH. lia. }
    apply G. lia.
Qed.
Lemma resize_length n (l : list (left_over Stim)) : length (resize n l) = n.
Proof. unfold resize. rewrite app_length, firstn_length, repeat_length. lia. Qed.

Theorem stopped_not_run e c l r g s i ck : reached_again e c l r g s -> nth_error l i = Some (Some ck, true) -> i < length (p_slots s) ->
  exists x ck', nth_error (p_slots s) i = Some x /\ sl_chk x = Some ck' /\ k_kind ck' = k_kind ck /\
    (k_eq ck' = k_eq ck \/ (k_kind ck = KZX /\ k_eq ck' = NoInformation)).
Proof.
  intros [acts H] Hl Hi.
  assert (L : length (p_slots s) = N.to_nat (effectiveThreads e c)).
  { clear Hi. assert (G : forall acts t t', arun e acts t = Some t' -> length (p_slots t') = length (p_slots t)).
    { intros l0 t t'. apply (arun_inv (fun t' => length (p_slots t') = length (p_slots t)) e l0); [|reflexivity].
      intros a u u' E HH. rewrite <- E. destruct a as [| |j|j].
      - apply (slots_len_step e AMain _ _ HH).
      - apply (slots_len_step e ATimeout _ _ HH).
      - destruct (again_moves _ _ _ _ (or_introl HH)) as (_ & y & Hy & [->|[(-> & _)|(y' & _ & E' & _)]]); try reflexivity. now rewrite E', upd_length.
      - apply (slots_len_step e (AAbort j) _ _ HH). }
    rewrite (G _ _ _ H). cbn. now rewrite map_length, resize_length. }
  assert (S0 : Stopped_at ck i (par_again e c l r g)).
  { exists (old_slot (Some ck, true)), ck. cbn [par_again p_slots]. rewrite nth_error_map, resize_nth by lia. rewrite Hl. cbn. repeat split; auto. discriminate. }
  destruct (arun_inv (Stopped_at ck i) e acts (stopped_step e ck i) _ _ S0 H) as (x & ck' & A & B & _ & _ & D). exists x, ck'. destruct D. auto.
Qed.
End Proofs.
