(** Where the parallel flow races: the main thread's steps and the theorem. *)
From Coq Require Import String List Bool NArith QArith Arith Lia.
From Verif Require Import Criterion Config SeqFlow ParFlow ParProofs Trace TraceProofs RaceProofs ParTrace RaceSpec ParTraceProofs ParTraceProofs2 ParTraceProofs3.
Import ListNotations.
Local Open Scope list_scope.
Local Open Scope nat_scope.

Section P.
Context {Stim Gen : Type}.
Notation env := (env Stim Gen).
Notation pst := (pst Stim Gen).
Notation tst := (tst Stim Gen).
Implicit Types (tr : trace loc) (T : tst) (pre post : list (what loc)).

Lemma taken_fut T i j : t_fut (taken i T) j = if Nat.eqb j i then false else t_fut T j.
Proof. reflexivity. Qed.

Ltac noin := cbn; intuition discriminate.

Lemma main_good (tr : trace loc) T s' l T' : Good tr T -> main_step (t_st T) = Some s' -> main_events T = (l, T') ->
  Good (tr ++ blk 0 l) (with_st s' T').
Proof.
  intros HG H HL. pose proof HG as [HI HR]. destruct (i_mpc _ _ HI) as (M1 & M2 & M3). destruct (i_queue _ _ HI) as [Q1 Q2p].
  assert (LV : live (t_st T) = true).
  { unfold main_step in H. unfold live. destruct (p_main (t_st T)); try reflexivity; discriminate. }
  assert (Q2 : forall i, In i (p_queue (t_st T)) -> t_fut T i = true /\ forall x, nth_error (p_slots (t_st T)) i = Some x -> sl_w x = WIdle)
    by (intros i Hi; destruct (Q2p i Hi) as [A B]; auto).
  assert (FL : forall i, t_fut T i = true -> i < length (p_slots (t_st T))).
  { destruct (i_futlen _ _ HI) as [E|E]; [|exact E]. unfold live in LV. rewrite E in LV. discriminate. }
  clear Q2p. pose proof (i_active _ _ HI) as AC.
  unfold main_step in H. unfold main_events in HL. destruct (p_main (t_st T)) as [ks| |j| | | | | | |] eqn:EM; try discriminate.
  - (* launching *)
    pose proof (M1 _ eq_refl) as HD. destruct ks as [|k ks].
    + injection H as <-. injection HL as <- <-.
      refine (main_quiet tr T _ _ HG _ _ _ _ _ _ _ _ _ _ _ _).
      * cbn. auto.
      * noin.
      * noin.
      * exact AC.
      * discriminate.
      * right. exact FL.
      * split; [exact Q1|]. intros i Hi. destruct (Q2 i Hi). auto.
      * intros _. split; [exact HD|noin].
      * discriminate.
      * intros _. exact HD.
      * discriminate.
      * noin.
    + pose proof (i_launch _ _ HI _ EM) as HLn.
      assert (Hl : l = ([rd LConfig] ++ (match k with KAlt => [] | _ => [rd LDone] end)) ++ Fork (t_next T) :: (match k with KSim => [wr LResults] | _ => [] end) /\ T' = launch (p_next (t_st T)) T).
      { injection HL as <- <-. split; [|reflexivity]. destruct k; reflexivity. }
      destruct Hl as [-> ->].
      assert (C1 : t_fut T (p_next (t_st T)) = true -> In (Join (t_tid T (p_next (t_st T)))) ([rd LConfig] ++ (match k with KAlt => [] | _ => [rd LDone] end))).
      { rewrite HLn by lia. discriminate. }
      assert (C2 : every (mcond tr T (with_st s' (launch (p_next (t_st T)) T))) [] 
        (([rd LConfig] ++ (match k with KAlt => [] | _ => [rd LDone] end)) ++ Fork (t_next T) :: (match k with KSim => [wr LResults] | _ => [] end))).
      { destruct k; cbn; tauto. }
      assert (C3 : ~ In (wr LDone) (([rd LConfig] ++ (match k with KAlt => [] | _ => [rd LDone] end)) ++ Fork (t_next T) :: (match k with KSim => [wr LResults] | _ => [] end))).
      { destruct k; noin. }
      assert (LP : forall j, In j (p_queue (t_st T)) -> j <> p_next (t_st T)).
      { intros j Hj ->. destruct (Q2 _ Hj) as [Q3 _]. rewrite HLn in Q3 by lia. discriminate. }
      refine (launch_good tr T _ _ _ _ T HG eq_refl eq_refl _ _ C1 C2 HD C3 _ _ _ _ _ _).
      * reflexivity.
      * apply HLn. lia.
      * destruct (nth_error (p_slots (t_st T)) (p_next (t_st T))) as [x|] eqn:Hx; injection H as <-; cbn; intros i y Hy Hw; [|right; eauto].
        destruct (Nat.eq_dec i (p_next (t_st T))) as [->|Hi]; [left; reflexivity|right]. rewrite upd_other in Hy by auto. eauto.
      * destruct (nth_error (p_slots (t_st T)) (p_next (t_st T))) as [x|] eqn:Hx; injection H as <-; cbn; [|discriminate].
        intros ks' _. split; [lia|]. intros i Hi. apply HLn. lia.
      * destruct (nth_error (p_slots (t_st T)) (p_next (t_st T))) as [x|] eqn:Hx; injection H as <-; cbn; [|left; reflexivity].
        right. rewrite upd_length. split; [apply nth_error_Some; congruence|exact FL].
      * destruct (nth_error (p_slots (t_st T)) (p_next (t_st T))) as [x|] eqn:Hx; injection H as <-; cbn; (split; [exact Q1|]);
          intros i Hi; (split; [auto|]); destruct (Q2 i Hi) as [Q3 Q4]; (split; [auto|]); intros y Hy; [|eauto].
        rewrite upd_other in Hy by (apply not_eq_sym; auto). eauto.
      * destruct (nth_error (p_slots (t_st T)) (p_next (t_st T))) as [x|]; injection H as <-; exact HD.
      * destruct (nth_error (p_slots (t_st T)) (p_next (t_st T))) as [x|]; injection H as <-; discriminate.
  - (* the loop *)
    pose proof (M2 eq_refl) as HD.
    destruct (p_queue (t_st T)) as [|i q] eqn:EQ; [discriminate|].
    apply NoDup_cons_iff in Q1. destruct Q1 as [Q1 Q1'].
    destruct (Q2 i (or_introl eq_refl)) as [Hfi Hidle].
    assert (Q2' : forall j, In j q -> j <> i /\ t_fut T j = true /\ forall x, nth_error (p_slots (t_st T)) j = Some x -> sl_w x = WIdle).
    { intros j Hj. split; [intros ->; contradiction|]. apply Q2. right. exact Hj. }
    assert (TJ : forall j, t_fut (taken i T) j = true -> t_tid T j <> t_tid T i /\ t_fut T j = true).
    { intros j. rewrite taken_fut. destruct (Nat.eqb_spec j i) as [|Hj]; [discriminate|]. intros Hf. split; [|exact Hf].
      intros E. apply Hj. eapply (i_inj _ _ HI); eauto. }
    pose proof (i_tid _ _ HI i Hfi) as Hti.
    assert (OW0 : forall s, own (with_st s (taken i T)) i = 0) by (intros s; unfold own; cbn; unfold fset; rewrite Nat.eqb_refl; reflexivity).
    destruct (nth_error (p_slots (t_st T)) i) as [x|] eqn:Hx; [|apply nth_error_None in Hx; specialize (FL _ Hfi); lia].
    specialize (Hidle _ eq_refl). assert (is_idle x = true) as HId by (unfold is_idle; rewrite Hidle; reflexivity).
    rewrite HId in H. cbn [negb] in H.
    (* the futures that remain *)
    assert (G : forall l' s2, (exists rest, l' = (popping ++ [Join (t_tid T i)]) ++ rest) -> every (mcond tr T (with_st s2 (taken i T))) [] l' ->
       (forall u, ~ In (Fork u) l') -> p_slots s2 = p_slots (t_st T) -> p_queue s2 = q ->
       (forall ks, p_main s2 <> MLaunch ks) -> (p_done s2 = false -> ~ In (wr LDone) l') -> (p_main s2 = MLoop -> p_done s2 = false) ->
       (forall j, p_main s2 = MSignal j -> In (wr LDone) l') -> Good (tr ++ blk 0 l') (with_st s2 (taken i T))).
    { intros l' s2 (rest & Er) HE HF Hs Hq Hm Hd Hlp Hsg.
      refine (taken_good tr T l' s2 (taken i T) HG eq_refl eq_refl _ _ HE HF _ Hm _ _ _ Hlp Hsg _).
      - intros j Hj. apply TJ, Hj.
      - intros j Hj. rewrite taken_fut. destruct (Nat.eqb_spec j i) as [->|Hji]; [|congruence]. intros _. rewrite Er.
        apply in_or_app. left. cbn. auto 10.
      - intros j y Hy Hw. rewrite Hs in Hy. rewrite taken_fut. destruct (Nat.eqb_spec j i) as [->|Hji]; [congruence|]. eauto.
      - right. rewrite Hs. exact FL.
      - rewrite Hq, Hs. split; [exact Q1'|]. intros j Hj. destruct (Q2' j Hj) as (N & Q3 & Q4). rewrite taken_fut. 
        destruct (Nat.eqb_spec j i); [contradiction|]. auto.
      - intros E. auto.
      - intros E. congruence. }
    assert (TJ' : forall s j, t_fut (with_st s (taken i T)) j = true -> t_tid (with_st s (taken i T)) j <> t_tid T i) by (intros s j Hj; apply TJ, Hj).
    destruct (sl_exn x).
    { injection H as <-. injection HL as <- <-. apply G.
      - exists []. reflexivity.
      - cbn. repeat split; auto 10; try lia; try exact (TJ' (t_st T)).
      - noin.
      - reflexivity.
      - reflexivity.
      - discriminate.
      - intros _. noin.
      - discriminate.
      - discriminate. }
    destruct (sl_chk x) as [k|].
    2: { injection H as <-. injection HL as <- <-. apply G.
      - eexists. reflexivity.
      - cbn. repeat split; auto 10; try lia; try exact (TJ' (t_st T)).
      - noin.
      - reflexivity.
      - reflexivity.
      - discriminate.
      - intros _. noin.
      - discriminate.
      - discriminate. }
    destruct (handle _ _ _ _ _) as [r|r|r] eqn:Hh.
    + injection H as <-. injection HL as <- <-. apply G.
      * eexists. cbn. reflexivity.
      * cbn. repeat split; auto 10; try lia; try exact (TJ' (t_st T)).
      * noin.
      * reflexivity.
      * reflexivity.
      * discriminate.
      * discriminate.
      * discriminate.
      * intros j _. cbn. auto 20.
    + injection H as <-. injection HL as <- <-. apply G.
      * eexists. cbn. reflexivity.
      * cbn. repeat split; auto 10; try lia; try exact (TJ' (t_st T)).
      * noin.
      * reflexivity.
      * reflexivity.
      * cbn. rewrite EM. discriminate.
      * intros _. noin.
      * intros _. exact HD.
      * cbn. rewrite EM. discriminate.
    + injection H as <-. injection HL as <- <-.
      assert (OWN : forall s, own (with_st s (launch i (taken i T))) i = t_next T) by (intros s; unfold own; cbn; unfold fset; rewrite !Nat.eqb_refl; reflexivity).
      refine (launch_good tr T i (popping ++ [Join (t_tid T i); rd (LSlot i); rd (LChecker i); rd LConfig; rd LResults; wr LResults])
               [wr LResults; rd LDone] _ (taken i T) HG eq_refl eq_refl _ _ _ _ HD _ _ _ _ _ _ _).
      * intros j Hj. rewrite taken_fut. apply Nat.eqb_neq in Hj. rewrite Hj. reflexivity.
      * rewrite taken_fut, Nat.eqb_refl. reflexivity.
      * intros _. cbn. auto 10.
      * assert (JT : forall s j, t_fut (with_st s (launch i (taken i T))) j = true -> t_tid (with_st s (launch i (taken i T))) j <> t_tid T i).
        { intros s j. cbn. unfold fset. destruct (Nat.eqb_spec j i) as [->|Hj]; [intros _; lia|].
          intros Hf E. apply Hj. eapply (i_inj _ _ HI); eauto. }
        cbn. repeat split; auto 10; try lia; try exact (JT (t_st T)).
      * noin.
      * cbn. intros j y Hy Hw. destruct (Nat.eq_dec j i) as [->|Hj]; [left; reflexivity|right]. rewrite upd_other in Hy by auto. eauto.
      * cbn. rewrite EM. discriminate.
      * cbn. right. rewrite upd_length. split; [apply FL, Hfi|exact FL].
      * cbn. split; [exact Q1'|]. intros j Hj. destruct (Q2' j Hj) as (N & Q3 & Q4). split; [exact N|]. split; [auto|].
        intros y Hy. rewrite upd_other in Hy by auto. eauto.
      * exact HD.
      * cbn. intros j. rewrite EM. discriminate.
  - (* signalling *)
    destruct (M3 j eq_refl) as (d & Hd).
    assert (HD : p_done (t_st T) = true) by (destruct (p_done (t_st T)) eqn:E; [reflexivity|destruct (i_undone _ _ HI E d Hd)]).
    destruct (nth_error (p_slots (t_st T)) j) as [x|] eqn:Hx.
    + injection H as <-. injection HL as <- <-. refine (main_quiet tr T _ _ HG _ _ _ _ _ _ _ _ _ _ _ _).
      * cbn. split; [right; eauto|]. destruct (has_chk x); cbn; eauto.
      * destruct (has_chk x); noin.
      * destruct (has_chk x); noin.
      * cbn. intros i y Hy Hw. destruct (Nat.eq_dec i j) as [->|Hij].
        -- rewrite (upd_same _ _ _ _ Hx) in Hy. injection Hy as <-. eapply AC; [exact Hx|]. destruct (has_chk x); exact Hw.
        -- rewrite upd_other in Hy by auto. eauto.
      * discriminate.
      * cbn. right. rewrite upd_length. exact FL.
      * cbn. split; [exact Q1|]. intros i Hi. destruct (Q2 i Hi) as [Q3 Q4]. split; [auto|]. intros y Hy.
        destruct (Nat.eq_dec i j) as [->|Hij].
        -- rewrite (upd_same _ _ _ _ Hx) in Hy. injection Hy as <-. specialize (Q4 _ Hx). destruct (has_chk x); exact Q4.
        -- rewrite upd_other in Hy by auto. eauto.
      * cbn. congruence.
      * discriminate.
      * discriminate.
      * eauto.
      * intros _. destruct (has_chk x); noin.
    + injection H as <-. injection HL as <- <-. refine (main_quiet tr T _ _ HG _ _ _ _ _ _ _ _ _ _ _ _).
      * exact I.
      * noin.
      * noin.
      * exact AC.
      * discriminate.
      * right. exact FL.
      * split; [exact Q1|]. intros i Hi. destruct (Q2 i Hi). auto.
      * cbn. congruence.
      * discriminate.
      * discriminate.
      * discriminate.
      * noin.
  - (* the end *)
    destruct (forallb is_idle (p_slots (t_st T))) eqn:EI; [|discriminate]. injection H as <-. injection HL as <- <-.
    set (s2 := set_main _ (t_st T)).
    assert (RP : forall w, In w (reports (t_st T) ++ [wr LResults]) -> w = wr LResults \/ exists k, w = rd (LSlot k) \/ w = rd (LChecker k)).
    { intros w Hw. apply in_app_or in Hw. destruct Hw as [Hw|[<-|[]]]; [|left; reflexivity]. right.
      unfold reports in Hw. apply in_concat in Hw. destruct Hw as (c & Hc & Hw). apply in_map_iff in Hc.
      destruct Hc as ([k x] & <- & _). cbn in Hw. exists k. destruct Hw as [<-|Hw]; [left; reflexivity|].
      destruct (has_chk x); [|destruct Hw]. destruct Hw as [<-|[]]. right. reflexivity. }
    assert (NN : forall w, (forall u, w <> Join u) -> w <> wr LResults -> (forall k, w <> rd (LSlot k) /\ w <> rd (LChecker k)) ->
       ~ In w (waits (length (p_slots (t_st T))) T ++ reports (t_st T) ++ [wr LResults])).
    { intros w N1 N2 N3 Hu. apply in_app_or in Hu. destruct Hu as [Hu|Hu]; [apply waits_only in Hu; destruct Hu as (u & Hu); exact (N1 u Hu)|].
      destruct (RP _ Hu) as [E|(k & [E|E])]; [contradiction|destruct (N3 k); contradiction|destruct (N3 k); contradiction]. }
    assert (NM : p_main s2 = MReturned \/ p_main s2 = MNullDeref) by (subst s2; cbn; destruct (forallb has_chk _); auto).
    refine (taken_good tr T _ s2 (all_taken T) HG eq_refl eq_refl _ _ _ _ _ _ _ _ _ _ _ _).
    + discriminate.
    + intros j Hj _. apply in_or_app. left. apply waits_in; auto.
    + apply every_app.
      * apply every_all. intros a w b Hw _. destruct (waits_only _ _ _ Hw) as (u & ->). apply in_waits in Hw. destruct Hw as (i & Hi & ->).
        cbn. split; [apply (i_tid _ _ HI i Hi)|discriminate].
      * apply every_all. intros a w b Hw Hi. destruct (RP _ Hw) as [->|(k & [-> | ->])]; cbn; [exact I|left|]; (split; [|left; reflexivity]);
          intros Hk; apply Hi, waits_in; auto.
    + intros u. apply NN; [discriminate|discriminate|split; discriminate].
    + intros i x Hx Hw. destruct (Hw (idle_all _ _ _ EI Hx)).
    + intros ks E. destruct NM as [NM|NM]; rewrite NM in E; discriminate.
    + right. exact FL.
    + split; [exact Q1|]. intros i Hi. split; [|apply Q2, Hi]. intros E. unfold live in E. destruct NM as [NM|NM]; rewrite NM in E; discriminate.
    + intros Hd. split; [exact Hd|]. apply NN; [discriminate|discriminate|split; discriminate].
    + intros E. destruct NM as [NM|NM]; rewrite NM in E; discriminate.
    + intros j E. destruct NM as [NM|NM]; rewrite NM in E; discriminate.
    + intros _ m. apply NN; [discriminate|discriminate|split; discriminate].
  - (* an exception *)
    destruct (forallb is_idle (p_slots (t_st T))) eqn:EI; [|discriminate]. injection H as <-. injection HL as <- <-.
    refine (taken_good tr T _ _ (all_taken T) HG eq_refl eq_refl _ _ _ _ _ _ _ _ _ _ _ _).
    + discriminate.
    + intros j Hj _. apply waits_in; auto.
    + apply every_all. intros a w b Hw _. destruct (waits_only _ _ _ Hw) as (u & ->). apply in_waits in Hw. destruct Hw as (i & Hi & ->).
      cbn. split; [apply (i_tid _ _ HI i Hi)|discriminate].
    + intros u Hu. destruct (waits_only _ _ _ Hu); discriminate.
    + intros i x Hx Hw. destruct (Hw (idle_all _ _ _ EI Hx)).
    + discriminate.
    + right. exact FL.
    + split; [exact Q1|]. intros i Hi. split; [discriminate|apply Q2, Hi].
    + intros Hd. split; [exact Hd|]. intros Hu. destruct (waits_only _ _ _ Hu); discriminate.
    + discriminate.
    + discriminate.
    + intros _ m Hu. destruct (waits_only _ _ _ Hu); discriminate.
Qed.
End P.
