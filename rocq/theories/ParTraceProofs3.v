(** Where the parallel flow races: all steps. *)
From Coq Require Import String List Bool NArith QArith Arith Lia.
From Verif Require Import Criterion Config SeqFlow ParFlow ParProofs Trace TraceProofs RaceProofs ParTrace RaceSpec ParTraceProofs ParTraceProofs2.
Import ListNotations.
Local Open Scope list_scope.
Local Open Scope nat_scope.

Section P.
Context {Stim Gen : Type}.
Notation env := (env Stim Gen).
Notation pst := (pst Stim Gen).
Notation tst := (tst Stim Gen).
Implicit Types (tr : trace loc) (T : tst) (pre post : list (what loc)).

Definition Good tr T : Prop := Inv tr T /\ forall x p q, race_on tr x p q -> good tr x p q.

(** replacing the slot of an active worker *)
Lemma slot_step tr T i l x y g : Good tr T -> t_fut T i = true -> nth_error (p_slots (t_st T)) i = Some x -> sl_w x <> WIdle ->
  live (t_st T) = true -> every (wcond i) [] l -> sl_w y <> WIdle ->
  Good (tr ++ blk (t_tid T i) l) (with_st (set_pgen g (set_slot i y (t_st T))) T).
Proof.
  intros [HI HG] Hf Hx Hw HL HE Hy. apply worker_inv; auto; cbn.
  - apply upd_length.
  - intros j z Hz Hz'. destruct (Nat.eq_dec j i) as [->|Hj]; [exact Hf|]. rewrite upd_other in Hz by auto. eapply (i_active _ _ HI); eauto.
  - destruct (i_queue _ _ HI) as [Q1 Q2]. split; [exact Q1|]. intros j Hj. destruct (Q2 j Hj) as [Q3 Q4]. split; [exact Q3|].
    intros z Hz. destruct (Nat.eq_dec j i) as [->|Hji]; [|rewrite upd_other in Hz by auto; eauto]. destruct (Hw (Q4 _ Hx)).
  - intros E. unfold live in HL. rewrite E in HL. discriminate.
Qed.
Lemma slot_step' tr T i l x y : Good tr T -> t_fut T i = true -> nth_error (p_slots (t_st T)) i = Some x -> sl_w x <> WIdle ->
  live (t_st T) = true -> every (wcond i) [] l -> sl_w y <> WIdle ->
  Good (tr ++ blk (t_tid T i) l) (with_st (set_slot i y (t_st T)) T).
Proof.
  intros H1 H2 H3 H4 H5 H6 H7. pose proof (slot_step tr T i l x y (p_gen (t_st T)) H1 H2 H3 H4 H5 H6 H7) as H.
  destruct T as [s ? ? ?]; destruct s; exact H.
Qed.

Lemma worker_good e tr T i s' : Good tr T -> worker_step e i (t_st T) = Some s' ->
  Good (tr ++ blk (t_tid T i) (worker_events e i (t_st T))) (with_st s' T).
Proof.
  intros HG H. pose proof HG as [HI HR]. unfold worker_step in H. destruct (live (t_st T)) eqn:HL; [|discriminate]. cbn [negb] in H.
  unfold worker_events. destruct (nth_error (p_slots (t_st T)) i) as [x|] eqn:Hx; [|discriminate].
  destruct (sl_w x) eqn:Ew; try discriminate.
  all: assert (Hw : sl_w x <> WIdle) by congruence; assert (Hf : t_fut T i = true) by (eapply (i_active _ _ HI); eauto).
  - destruct (sl_chk x) as [ck|] eqn:Ec.
    + injection H as <-. eapply slot_step'; eauto; [cbn; tauto|]. destruct k; cbn; discriminate.
    + destruct (ctor_throws e (p_cfg (t_st T)) k) eqn:Et; cbn [orb].
      * injection H as <-. eapply slot_step'; eauto; [cbn; tauto|]. cbn; discriminate.
      * destruct k; cbn [negb]; try (injection H as <-; eapply slot_step'; eauto; [cbn; tauto|cbn; discriminate]).
        destruct (e_zx_perm_ok e); cbn [negb].
        -- injection H as <-; eapply slot_step'; eauto; [cbn; tauto|cbn; discriminate].
        -- injection H as <-. apply worker_inv; auto; cbn.
           ++ tauto.
           ++ exact (i_active _ _ HI).
           ++ destruct (i_queue _ _ HI) as [Q1 Q2]. split; [exact Q1|]. intros j Hj. split; [discriminate|apply Q2, Hj].
           ++ intros E. unfold live in HL. rewrite E in HL. discriminate.
  - destruct (e_gen e (p_gen (t_st T))) as [[y g']|]; [|discriminate]. destruct (sl_chk x); [|discriminate].
    injection H as <-. eapply slot_step; eauto; [cbn; tauto|cbn; discriminate].
  - injection H as <-. eapply slot_step'; eauto; [cbn; tauto|]. cbn. destruct (p_done (t_st T)); discriminate.
  - destruct (sl_chk x) as [k|]; [|discriminate].
    assert (G : forall y, sl_w y = WPush -> Some (set_slot i y (t_st T)) = Some s' ->
       Good (tr ++ blk (t_tid T i) (running i)) (with_st s' T)).
    { intros y Hy E. injection E as <-. eapply slot_step'; eauto; [cbn; tauto|]. rewrite Hy. discriminate. }
    destruct (k_kind k), (e_canHandle e); (eapply G; [|exact H]; reflexivity).
  - injection H as <-. apply worker_inv; auto; cbn.
    + tauto.
    + apply upd_length.
    + intros j z Hz Hz'. destruct (Nat.eq_dec j i) as [->|Hj]; [exact Hf|]. rewrite upd_other in Hz by auto. eapply (i_active _ _ HI); eauto.
    + destruct (i_queue _ _ HI) as [Q1 Q2].
      assert (NI : ~ In i (p_queue (t_st T))) by (intros Hi; destruct (Q2 _ Hi) as [_ Q4]; exact (Hw (Q4 _ Hx))).
      split.
      * apply NoDup_rev in Q1. rewrite <- (rev_involutive (p_queue (t_st T) ++ [i])). apply NoDup_rev. rewrite rev_app_distr. cbn.
        constructor; [rewrite <- in_rev; exact NI|exact Q1].
      * intros j Hj. apply in_app_or in Hj. destruct (Nat.eq_dec j i) as [->|Hji].
        -- split; [intros _; exact Hf|]. intros z Hz. rewrite (upd_same _ _ _ _ Hx) in Hz. injection Hz as <-. reflexivity.
        -- destruct Hj as [Hj|[->|[]]]; [|congruence]. destruct (Q2 j Hj) as [Q3 Q4]. split; [exact Q3|].
           intros z Hz. rewrite upd_other in Hz by auto. eauto.
    + intros E. unfold live in HL. rewrite E in HL. discriminate.
Qed.

Lemma abort_good tr T i s' : Good tr T -> abort_step i (t_st T) = Some s' ->
  Good (tr ++ blk (t_tid T i) (running i)) (with_st s' T).
Proof.
  intros HG H. pose proof HG as [HI HR]. unfold abort_step in H. destruct (live (t_st T)) eqn:HL; [|discriminate]. cbn [negb] in H.
  destruct (nth_error (p_slots (t_st T)) i) as [x|] eqn:Hx; [|discriminate].
  destruct (sl_w x) eqn:Ew; try discriminate. destruct (sl_chk x) as [k|]; [|discriminate]. destruct (sl_flag x); [|discriminate].
  assert (Hw : sl_w x <> WIdle) by congruence; assert (Hf : t_fut T i = true) by (eapply (i_active _ _ HI); eauto).
  injection H as <-. eapply slot_step'; eauto; [cbn; tauto|]. cbn. discriminate.
Qed.

(** ** the main thread *)
(** steps that start and wait for no thread *)
Lemma main_quiet tr T l s' : Good tr T -> every (mcond tr T T) [] l -> (forall u, ~ In (Join u) l) -> (forall u, ~ In (Fork u) l) ->
  (forall i x, nth_error (p_slots s') i = Some x -> sl_w x <> WIdle -> t_fut T i = true) ->
  (forall ks, p_main s' = MLaunch ks -> forall i, p_next s' <= i -> t_fut T i = false) ->
  (p_main s' = MOutOfBounds \/ forall i, t_fut T i = true -> i < length (p_slots s')) ->
  (NoDup (p_queue s') /\ forall i, In i (p_queue s') -> (live s' = true -> t_fut T i = true) /\
              forall x, nth_error (p_slots s') i = Some x -> sl_w x = WIdle) ->
  (p_done s' = false -> p_done (t_st T) = false /\ ~ In (wr LDone) l) ->
  (forall ks, p_main s' = MLaunch ks -> p_done s' = false) -> (p_main s' = MLoop -> p_done s' = false) ->
  (forall j, p_main s' = MSignal j -> In (wr LDone) l \/ exists d, sets_done tr d) ->
  (p_done (t_st T) = true -> forall m, ~ In (Unlock m) l) ->
  Good (tr ++ blk 0 l) (with_st s' T).
Proof.
  intros [HI HG] HE HJ HF HA HLa HFl HQ HU H1 H2 H3 H4. apply (main_inv tr T l T s'); auto.
  - apply moves_same. reflexivity.
  - exact (i_tid _ _ HI).
  - exact (i_inj _ _ HI).
Qed.

Lemma timeout_good tr T s' : Good tr T -> timeout_step (t_st T) = Some s' -> Good (tr ++ blk 0 timeout_events) (with_st s' T).
Proof.
  intros HG H. pose proof HG as [HI HR]. unfold timeout_step in H. destruct (p_main (t_st T)) eqn:EM; try discriminate.
  destruct (p_queue (t_st T)) eqn:EQ; [|discriminate]. destruct (hasTimeout _); [|discriminate]. injection H as <-.
  destruct (i_mpc _ _ HI) as (M1 & M2 & M3).
  apply main_quiet; auto; cbn.
  - repeat split; auto 10.
  - intros u [H|[H|[H|[H|[]]]]]; discriminate.
  - intros u [H|[H|[H|[H|[]]]]]; discriminate.
  - exact (i_active _ _ HI).
  - discriminate.
  - right. destruct (i_futlen _ _ HI) as [H|H]; [congruence|exact H].
  - rewrite EQ. split; [constructor|intros i []].
  - discriminate.
  - discriminate.
  - discriminate.
  - auto 10.
  - intros Hd. rewrite (M2 EM) in Hd. discriminate.
Qed.
(** starting a thread for slot [i] that has none *)
Lemma launch_good tr T i l0 l1 s' T0 : Good tr T ->
  (* [T0]: the futures before the start *)
  t_tid T0 = t_tid T -> t_next T0 = t_next T -> (forall j, j <> i -> t_fut T0 j = t_fut T j) -> t_fut T0 i = false ->
  (t_fut T i = true -> In (Join (t_tid T i)) l0) ->
  every (mcond tr T (with_st s' (launch i T0))) [] (l0 ++ Fork (t_next T) :: l1) ->
  p_done (t_st T) = false -> ~ In (wr LDone) (l0 ++ Fork (t_next T) :: l1) ->
  (forall j x, nth_error (p_slots s') j = Some x -> sl_w x <> WIdle -> j = i \/ t_fut T j = true) ->
  (forall ks, p_main s' = MLaunch ks -> i < p_next s' /\ forall j, p_next s' <= j -> t_fut T j = false) ->
  (p_main s' = MOutOfBounds \/ (i < length (p_slots s') /\ forall j, t_fut T j = true -> j < length (p_slots s'))) ->
  (NoDup (p_queue s') /\ forall j, In j (p_queue s') -> j <> i /\ (live s' = true -> t_fut T j = true) /\
              forall x, nth_error (p_slots s') j = Some x -> sl_w x = WIdle) ->
  p_done s' = false -> (forall j, p_main s' <> MSignal j) ->
  Good (tr ++ blk 0 (l0 ++ Fork (t_next T) :: l1)) (with_st s' (launch i T0)).
Proof.
  intros [HI HG] E1 E2 EF Ei HJ HE HD HW HA HLa HFl HQ HD' HM.
  assert (FS : forall A (f : nat -> A) v, fset f i v i = v) by (intros; unfold fset; rewrite Nat.eqb_refl; reflexivity).
  assert (FO : forall A (f : nat -> A) v j, j <> i -> fset f i v j = f j) by (intros A f v j Hj; unfold fset; apply Nat.eqb_neq in Hj; rewrite Hj; reflexivity).
  apply (main_inv tr T); cbn [launch t_tid t_fut t_next t_st]; auto.
  - intros j p. unfold own. cbn [with_st launch t_tid t_fut]. destruct (Nat.eq_dec j i) as [->|Hj].
    + rewrite !FS, E2. intros HK. apply known_fork. destruct (t_fut T i) eqn:Ef; [|apply known_mono, HK].
      eapply known_join; [apply HJ; reflexivity|exact HK].
    + rewrite !FO by assumption. rewrite EF, E1 by assumption. intros HK. apply known_mono, HK.
  - intros j. rewrite E1, E2. destruct (Nat.eq_dec j i) as [->|Hj].
    + rewrite !FS. intros _. pose proof (i_next _ _ HI). lia.
    + rewrite !FO by assumption. rewrite EF by assumption. intros H. pose proof (i_tid _ _ HI j H). lia.
  - intros j k. rewrite E1, E2. destruct (Nat.eq_dec j i) as [->|Hj]; destruct (Nat.eq_dec k i) as [->|Hk]; rewrite ?FS; rewrite ?FO by assumption; rewrite ?EF by assumption; auto.
    + intros _ H H'. pose proof (i_tid _ _ HI k H). lia.
    + intros H _ H'. pose proof (i_tid _ _ HI j H). lia.
    + exact (i_inj _ _ HI j k).
  - intros j x Hx Hw. destruct (Nat.eq_dec j i) as [->|Hj]; [apply FS|]. rewrite FO, EF by assumption.
    destruct (HA j x Hx Hw); [contradiction|assumption].
  - intros ks Hks j Hj. destruct (HLa ks Hks) as [H1 H2]. rewrite FO, EF by lia. apply H2, Hj.
  - destruct HFl as [H|[H1 H2]]; [left; exact H|right]. intros j. destruct (Nat.eq_dec j i) as [->|Hj]; [auto|]. rewrite FO, EF by assumption. apply H2.
  - destruct HQ as [Q1 Q2]. split; [exact Q1|]. intros j Hj. destruct (Q2 j Hj) as (Q3 & Q4 & Q5). rewrite FO, EF by assumption. auto.
  - intros j. rewrite E1, E2. destruct (Nat.eq_dec j i) as [->|Hj]; [rewrite !FS; auto|]. rewrite !FO, EF by assumption. auto.
  - lia.
  - intros j Hj. destruct (HM j Hj).
  - intros H. congruence.
Qed.

(** waiting for threads: those in [W] *)
Lemma taken_good tr T l s' T0 : Good tr T ->
  t_tid T0 = t_tid T -> t_next T0 = t_next T -> (forall j, t_fut T0 j = true -> t_fut T j = true) ->
  (forall j, t_fut T j = true -> t_fut T0 j = false -> In (Join (t_tid T j)) l) ->
  every (mcond tr T (with_st s' T0)) [] l -> (forall u, ~ In (Fork u) l) ->
  (forall i x, nth_error (p_slots s') i = Some x -> sl_w x <> WIdle -> t_fut T0 i = true) ->
  (forall ks, p_main s' <> MLaunch ks) ->
  (p_main s' = MOutOfBounds \/ forall i, t_fut T i = true -> i < length (p_slots s')) ->
  (NoDup (p_queue s') /\ forall i, In i (p_queue s') -> (live s' = true -> t_fut T0 i = true) /\
              forall x, nth_error (p_slots s') i = Some x -> sl_w x = WIdle) ->
  (p_done s' = false -> p_done (t_st T) = false /\ ~ In (wr LDone) l) ->
  (p_main s' = MLoop -> p_done s' = false) ->
  (forall j, p_main s' = MSignal j -> In (wr LDone) l) ->
  (p_done (t_st T) = true -> forall m, ~ In (Unlock m) l) ->
  Good (tr ++ blk 0 l) (with_st s' T0).
Proof.
  intros [HI HG] E1 E2 EF HJ HE HF HA HLa HFl HQ HU HM HS HUl.
  apply (main_inv tr T l T0 s'); auto.
  - intros j p. unfold own. cbn [with_st t_tid t_fut]. rewrite E1. destruct (t_fut T j) eqn:Ej.
    + destruct (t_fut T0 j) eqn:Ej0; intros HK; [apply known_mono, HK|]. eapply known_join; [apply HJ; eassumption|exact HK].
    + destruct (t_fut T0 j) eqn:Ej0; [rewrite (EF _ Ej0) in Ej; discriminate|]. intros HK. apply known_mono, HK.
  - intros i Hi. rewrite E1, E2. apply (i_tid _ _ HI), EF, Hi.
  - intros i j Hi Hj. rewrite E1. apply (i_inj _ _ HI); auto.
  - intros ks Hks. destruct (HLa ks Hks).
  - destruct HFl as [H|H]; [left; exact H|right]. intros i Hi. apply H, EF, Hi.
  - intros i Hi. left. rewrite E1. auto.
  - lia.
  - intros ks Hks. destruct (HLa ks Hks).
  - intros j Hj. left. eauto.
Qed.

Lemma in_waits T n u : In (Join u) (waits n T) -> exists i, t_fut T i = true /\ u = t_tid T i.
Proof. intros H. apply in_map_iff in H. destruct H as (i & E & Hi). apply filter_In in Hi. destruct Hi as [_ Hi]. injection E as <-. eauto. Qed.
Lemma waits_in T n i : t_fut T i = true -> i < n -> In (Join (t_tid T i)) (waits n T).
Proof. intros H Hn. apply in_map_iff. exists i. split; [reflexivity|]. apply filter_In. split; [apply in_seq; lia|assumption]. Qed.
Lemma waits_only T n w : In w (waits n T) -> exists u, w = Join u.
Proof. intros H. apply in_map_iff in H. destruct H as (i & <- & _). eauto. Qed.

Lemma idle_all (s : pst) i x : forallb is_idle (p_slots s) = true -> nth_error (p_slots s) i = Some x -> sl_w x = WIdle.
Proof. intros H Hx. rewrite forallb_forall in H. specialize (H _ (nth_error_In _ _ Hx)). unfold is_idle in H. destruct (sl_w x); congruence. Qed.
End P.

