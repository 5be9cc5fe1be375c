(** Every behaviour of SeqFlow.v is an interleaving; the threads end; who waits for the deadline. *)
From Coq Require Import String List Bool NArith QArith Arith Lia.
From Verif Require Import Criterion Config SeqFlow Trace SeqThreads SeqThreadsSpec SeqThreadsProofs.
Import ListNotations.
Local Open Scope list_scope.
Local Open Scope nat_scope.

Section Exact.
Context {A : Type}.
Notation shared := (shared A).

Lemma srun_app acts1 acts2 (w : shared) : srun (acts1 ++ acts2) w = match srun acts1 w with Some w' => srun acts2 w' | None => None end.
Proof. revert w; induction acts1 as [|a l IH]; intros w; cbn; [reflexivity|]. destruct (sstep a w); auto. Qed.

(** checkers run only right after a look at [done] that was negative *)
Fixpoint guarded (b : bool) (p : prog A) : Prop :=
  match p with
  | PRead k => guarded true (k false) /\ guarded false (k true)
  | PRun k => b = true /\ forall x, guarded false (k x)
  | PSet p => guarded false p
  | PNotify p => guarded b p
  | PEmplace p | PClear p => guarded false p
  | PJoin p => exists a, p = PLeave a
  | PLeave _ => True
  end.

Definition may_leave (w : shared) (a : A) : Prop := exists acts, leaves acts w a.
Lemma leave_step x w w' a : sstep x w = Some w' -> may_leave w' a -> may_leave w a.
Proof. intros H (acts & w2 & H1 & H2). exists (x :: acts), w2. cbn. rewrite H. auto. Qed.
Lemma leave_run acts w w' a : srun acts w = Some w' -> may_leave w' a -> may_leave w a.
Proof. intros H (acts2 & w2 & H1 & H2). exists (acts ++ acts2), w2. rewrite srun_app, H. auto. Qed.

Definition at_leave (w : shared) : bool := match w_prog w with PLeave _ => true | _ => false end.

(** [done] is set and the timeout thread has ended *)
Lemma real_ended p : forall (w : shared) t d b cut, w_prog w = p -> w_tm w = TEnded -> w_done w = true -> w_ub w = false -> guarded b p ->
  (b = true -> w_flag w (Nat.pred (w_len w)) = true) -> may_leave w (alone (fun _ => true) cut t d p).
Proof.
  induction p as [k IH|p IH|p IH|p IH|p IH|k IH|p IH|a]; intros w t d b cut HP HT HD HU HG HF; cbn [alone guarded] in *.
  - rewrite orb_true_r. eapply leave_step with (x := SMain false).
    + unfold sstep, stopped. rewrite HU, HP. cbn. unfold smain. rewrite HP, HD. reflexivity.
    + apply (IH true) with (b := false); cbn; auto; [exact (proj2 HG)|discriminate].
  - eapply leave_step with (x := SMain false).
    + unfold sstep, stopped. rewrite HU, HP. cbn. unfold smain. rewrite HP. reflexivity.
    + apply IH with (b := false); cbn; auto; discriminate.
  - eapply leave_step with (x := SMain false).
    + unfold sstep, stopped. rewrite HU, HP. cbn. unfold smain. rewrite HP, HT. reflexivity.
    + apply IH with (b := b); cbn; auto.
  - eapply leave_step with (x := SMain false).
    + unfold sstep, stopped. rewrite HU, HP. cbn. unfold smain. rewrite HP, HT. reflexivity.
    + apply IH with (b := false); cbn; auto; discriminate.
  - eapply leave_step with (x := SMain false).
    + unfold sstep, stopped. rewrite HU, HP. cbn. unfold smain. rewrite HP, HT. reflexivity.
    + apply IH with (b := false); cbn; auto; discriminate.
  - destruct HG as [-> HG]. eapply leave_step with (x := SMain (cut t)).
    + unfold sstep, stopped. rewrite HU, HP. cbn. unfold smain. rewrite HP, (HF eq_refl), orb_true_r. reflexivity.
    + apply (IH (cut t)) with (b := false); cbn; auto; discriminate.
  - destruct HG as [a ->]. eapply leave_step with (x := SMain false).
    + unfold sstep, stopped. rewrite HU, HP. cbn. unfold smain. rewrite HP, HT. reflexivity.
    + apply IH with (b := false); cbn; auto; discriminate.
  - exists [], w. cbn. auto.
Qed.

(** the calling thread has set [done] itself; the timeout thread has not run yet *)
Lemma real_decided p : forall (w : shared) t fired cut, w_prog w = p -> w_tm w = TStart \/ w_tm w = TNone -> w_done w = true -> w_ub w = false ->
  guarded false p -> may_leave w (alone fired cut t true p).
Proof.
  induction p as [k IH|p IH|p IH|p IH|p IH|k IH|p IH|a]; intros w t fi cut HP HT HD HU HG; cbn [alone guarded] in *.
  - cbn [orb]. eapply leave_step with (x := SMain false).
    + unfold sstep, stopped. rewrite HU, HP. cbn. unfold smain. rewrite HP, HD. reflexivity.
    + apply (IH true); cbn; auto. exact (proj2 HG).
  - eapply leave_step with (x := SMain false).
    + unfold sstep, stopped. rewrite HU, HP. cbn. unfold smain. rewrite HP. reflexivity.
    + apply IH; cbn; auto.
  - eapply leave_step with (x := SMain false).
    + unfold sstep, stopped. rewrite HU, HP. cbn. unfold smain. rewrite HP. reflexivity.
    + apply IH; cbn; auto. destruct HT as [-> | ->]; auto.
  - eapply leave_step with (x := SMain false).
    + unfold sstep, stopped. rewrite HU, HP. cbn. unfold smain. rewrite HP. reflexivity.
    + apply IH; cbn; auto. destruct HT as [-> | ->]; auto.
  - eapply leave_step with (x := SMain false).
    + unfold sstep, stopped. rewrite HU, HP. cbn. unfold smain. rewrite HP. reflexivity.
    + apply IH; cbn; auto. destruct HT as [-> | ->]; auto.
  - destruct HG as [HG _]. discriminate.
  - destruct HG as [a ->]. destruct HT as [HT|HT].
    + exists [STimer; STimer; STimer; SMain false]. unfold leaves. cbn [srun]. unfold sstep, stopped, stimer, set_tm, smain.
      rewrite HU, HP, HT. cbn. rewrite HD. cbn. rewrite ?HU. cbn. eexists. repeat split; reflexivity.
    + exists [SMain false]. unfold leaves. cbn [srun]. unfold sstep, stopped, smain. rewrite HU, HP. cbn. rewrite HT. cbn.
      eexists. repeat split.
  - exists [], w. cbn. auto.
Qed.

(** the deadline passes: the timeout thread runs from its start to its end *)
Lemma signal_all n : forall k (w : shared) j, n - j = k -> j <= n -> w_tm w = TSignal j n -> stopped w = false ->
  exists acts w', srun acts w = Some w' /\ w_tm w' = TExit /\ w_prog w' = w_prog w /\ w_done w' = w_done w /\ w_len w' = w_len w /\
    w_ub w' = w_ub w /\ (forall i, i < j -> w_flag w' i = w_flag w i) /\ forall i, j <= i < n -> w_flag w' i = true.
Proof.
  induction k as [|k IH]; intros w j HK HJ HT HS.
  - exists [STimer], (set_tm TExit w). cbn [srun]. unfold sstep. rewrite HS. unfold stimer. rewrite HT.
    replace (Nat.ltb j n) with false by (symmetry; apply Nat.ltb_ge; lia). repeat split; auto. intros i Hi. lia.
  - set (w1 := mkSh (w_prog w) (w_done w) (w_len w) (upd_flag (w_flag w) j true) (TSignal (S j) n) (w_ub w)).
    destruct (IH w1 (S j)) as (acts & w' & H1 & H2 & H3 & H4 & H5 & H6 & H7 & H8); [lia|lia|reflexivity|exact HS|].
    exists (STimer :: acts), w'. split.
    + cbn [srun]. unfold sstep. rewrite HS. unfold stimer. rewrite HT. replace (Nat.ltb j n) with true by (symmetry; apply Nat.ltb_lt; lia).
      exact H1.
    + repeat split; auto.
      * intros i Hi. rewrite H7 by lia. cbn. unfold upd_flag. destruct (Nat.eqb_spec i j); [lia|reflexivity].
      * intros i Hi. destruct (Nat.eq_dec i j) as [->|Hn]; [|apply H8; lia]. rewrite H7 by lia. cbn. unfold upd_flag. rewrite Nat.eqb_refl. reflexivity.
Qed.

Lemma fire_all (w : shared) : w_tm w = TStart -> w_done w = false -> stopped w = false ->
  exists acts w', srun acts w = Some w' /\ w_tm w' = TEnded /\ w_prog w' = w_prog w /\ w_done w' = true /\ w_len w' = w_len w /\
    w_ub w' = w_ub w /\ forall i, i < w_len w -> w_flag w' i = true.
Proof.
  intros HT HD HS. set (w1 := mkSh (w_prog w) true (w_len w) (w_flag w) (TSignal 0 (w_len w)) (w_ub w)).
  assert (R1 : srun [STimer; STimer; STimer; SDeadline; STimer; STimer] w = Some w1).
  { assert (ST : forall t, stopped (set_tm t w) = false) by (intros t; exact HS).
    cbn [srun]. unfold sstep at 1. rewrite HS. unfold stimer at 1. rewrite HT.
    unfold sstep at 1. rewrite ST. cbn [stimer set_tm w_tm w_done]. rewrite HD.
    unfold sstep at 1. change (set_tm TEnqueue (set_tm TCheck w)) with (set_tm TEnqueue w). rewrite ST. cbn [stimer w_tm set_tm].
    unfold sstep at 1. change (set_tm TWait (set_tm TEnqueue w)) with (set_tm TWait w). rewrite ST. cbn [w_tm set_tm].
    unfold sstep at 1. change (set_tm TLate (set_tm TWait w)) with (set_tm TLate w). rewrite ST. cbn [stimer w_tm set_tm w_done]. rewrite HD.
    unfold sstep at 1. change (set_tm TFire (set_tm TLate w)) with (set_tm TFire w). rewrite ST. cbn [stimer w_tm set_tm]. reflexivity. }
  destruct (signal_all (w_len w) (w_len w) w1 0) as (acts & w' & H1 & H2 & H3 & H4 & H5 & H6 & _ & H8); [lia|lia|reflexivity|exact HS|].
  exists ([STimer; STimer; STimer; SDeadline; STimer; STimer] ++ acts ++ [STimer]), (set_tm TEnded w').
  split.
  - rewrite srun_app, R1, srun_app, H1. cbn [srun]. unfold sstep. replace (stopped w') with false.
    + unfold stimer. rewrite H2. reflexivity.
    + unfold stopped. rewrite H3, H6. symmetry. exact HS.
  - cbn. repeat split; auto. intros i Hi. apply H8. lia.
Qed.

Lemma stopped_of (w : shared) p : w_prog w = p -> w_ub w = false -> match p with PLeave _ => true | _ => false end = false -> stopped w = false.
Proof. intros HP HU H. unfold stopped. rewrite HU, HP. exact H. Qed.

Lemma real : forall p (w : shared) t b o fire notice, w_prog w = p -> w_tm w = TStart \/ (w_tm w = TNone /\ fire = None) -> w_done w = false ->
  w_ub w = false -> guarded b p -> own_only o p -> (o = true -> 0 < w_len w) ->
  (forall f, fire = Some f -> t <= f) ->
  may_leave w (alone (fires fire) (fun i => fires fire i && notice i) t false p).
Proof.
  assert (FIRE : forall p (w : shared) t b o notice, w_prog w = p -> match p with PRead _ | PRun _ => True | _ => False end ->
            w_tm w = TStart -> w_done w = false -> w_ub w = false -> guarded b p -> own_only o p -> (o = true -> 0 < w_len w) ->
            may_leave w (alone (fires (Some t)) (fun i => fires (Some t) i && notice i) t false p)).
  { intros p w t b o notice HP HK HT HD HU HG HO HL.
    assert (HS : stopped w = false) by (apply (stopped_of w p HP HU); destruct p; auto; destruct HK).
    destruct (fire_all w HT HD HS) as (acts & w' & H1 & H2 & H3 & H4 & H5 & H6 & H7).
    eapply leave_run; [exact H1|].
    rewrite (alone_ext p (fires (Some t)) (fun i => fires (Some t) i && notice i) (fun _ => true) notice t false).
    - destruct p; try destruct HK.
      + apply real_ended with (b := false); auto; congruence.
      + cbn [own_only] in HO. destruct HO as [-> HO]. apply real_ended with (b := b); auto; try congruence.
        intros _. apply H7. specialize (HL eq_refl). rewrite H5. lia.
    - intros i Hi. cbn. apply Nat.leb_le, Hi.
    - intros i Hi. cbn. apply Nat.leb_le in Hi. rewrite Hi. reflexivity. }
  induction p as [k IH|p IH|p IH|p IH|p IH|k IH|p IH|a]; intros w t b o fire notice HP HT HD HU HG HO HL HF.
  - destruct (option_map (Nat.eqb t) fire) as [[|]|] eqn:EF.
    + destruct fire as [f|]; [|discriminate]. injection EF as EF. apply Nat.eqb_eq in EF. subst f.
      destruct HT as [HT|[_ HT]]; [|discriminate]. eapply FIRE; eauto; exact I.
    + destruct fire as [f|]; [|discriminate]. injection EF as EF. apply Nat.eqb_neq in EF. specialize (HF f eq_refl) as Hle.
      cbn [alone guarded own_only] in *. replace (fires (Some f) t) with false by (symmetry; apply Nat.leb_gt; lia). cbn [orb].
      eapply leave_step with (x := SMain false).
      * unfold sstep. rewrite (stopped_of w _ HP HU eq_refl). unfold smain. rewrite HP, HD. reflexivity.
      * apply (IH false) with (b := true) (o := o); cbn; auto; [exact (proj1 HG)|]. intros f' E. injection E as <-. lia.
    + destruct fire as [f|]; [discriminate|]. cbn [alone guarded own_only fires orb] in *.
      eapply leave_step with (x := SMain false).
      * unfold sstep. rewrite (stopped_of w _ HP HU eq_refl). unfold smain. rewrite HP, HD. reflexivity.
      * apply (IH false) with (b := true) (o := o) (fire := None); cbn; auto; [exact (proj1 HG)|]. discriminate.
  - cbn [alone guarded own_only] in *. eapply leave_step with (x := SMain false).
    + unfold sstep. rewrite (stopped_of w _ HP HU eq_refl). unfold smain. rewrite HP. reflexivity.
    + apply real_decided; cbn; auto. destruct HT as [HT|[HT _]]; auto.
  - cbn [alone guarded own_only] in *. eapply leave_step with (x := SMain false).
    + unfold sstep. rewrite (stopped_of w _ HP HU eq_refl). unfold smain. rewrite HP. reflexivity.
    + apply IH with (b := b) (o := o); cbn; auto. destruct HT as [-> | [-> ->]]; auto.
  - cbn [alone guarded own_only] in *. eapply leave_step with (x := SMain false).
    + unfold sstep. rewrite (stopped_of w _ HP HU eq_refl). unfold smain. rewrite HP. reflexivity.
    + apply IH with (b := false) (o := true); cbn; auto; [|lia]. destruct HT as [-> | [-> ->]]; reflexivity.
  - cbn [alone guarded own_only] in *. eapply leave_step with (x := SMain false).
    + unfold sstep. rewrite (stopped_of w _ HP HU eq_refl). unfold smain. rewrite HP. reflexivity.
    + apply IH with (b := false) (o := false); cbn; auto; [|discriminate]. destruct HT as [-> | [-> ->]]; reflexivity.
  - destruct (option_map (Nat.eqb t) fire) as [[|]|] eqn:EF.
    + destruct fire as [f|]; [|discriminate]. injection EF as EF. apply Nat.eqb_eq in EF. subst f.
      destruct HT as [HT|[_ HT]]; [|discriminate]. eapply FIRE; eauto; exact I.
    + destruct fire as [f|]; [|discriminate]. injection EF as EF. apply Nat.eqb_neq in EF. specialize (HF f eq_refl) as Hle.
      cbn [alone guarded own_only] in *. replace (fires (Some f) t) with false by (symmetry; apply Nat.leb_gt; lia). cbn [andb].
      eapply leave_step with (x := SMain false).
      * unfold sstep. rewrite (stopped_of w _ HP HU eq_refl). unfold smain. rewrite HP. reflexivity.
      * apply (IH false) with (b := false) (o := o); cbn; auto; [apply HG|apply HO|]. intros f' E. injection E as <-. lia.
    + destruct fire as [f|]; [discriminate|]. cbn [alone guarded own_only fires andb] in *.
      eapply leave_step with (x := SMain false).
      * unfold sstep. rewrite (stopped_of w _ HP HU eq_refl). unfold smain. rewrite HP. reflexivity.
      * apply (IH false) with (b := false) (o := o) (fire := None) (notice := notice); cbn; auto; [apply HG|apply HO|]. discriminate.
  - cbn [alone guarded own_only] in *. destruct HG as [a ->]. cbn [alone]. destruct HT as [HT|[HT _]].
    + destruct (fire_all w HT HD (stopped_of w _ HP HU eq_refl)) as (acts & w' & H1 & H2 & H3 & H4 & H5 & H6 & H7).
      eapply leave_run; [exact H1|]. exists [SMain false]. unfold leaves. cbn [srun]. unfold sstep. rewrite (stopped_of w' (PJoin (PLeave a))); [|congruence|congruence|reflexivity].
      unfold smain. rewrite H3, HP, H2. eexists. repeat split. cbn. congruence.
    + exists [SMain false]. unfold leaves. cbn [srun]. unfold sstep. rewrite (stopped_of w _ HP HU eq_refl). unfold smain. rewrite HP, HT.
      eexists. repeat split. exact HU.
  - exists [], w. cbn. auto.
Qed.
End Exact.

Section Guard.
Context {Stim Gen : Type}.
Notation env := (env Stim Gen).
Notation left_over := (left_over Stim Gen).
Variables (e : env) (c : config).
Notation act := (prog (outcome left_over)).

Lemma guard_weaken {A} (p : prog A) : guarded false p -> guarded true p.
Proof. induction p as [k IH|p IH|p IH|p IH|p IH|k IH|p IH|a]; cbn; auto. intros [H _]. discriminate. Qed.
Lemma guard_any {A} (p : prog A) b : guarded false p -> guarded b p.
Proof. destruct b; [apply guard_weaken|auto]. Qed.

Lemma g_sim fuel s (next : left_over -> act) : (forall s, guarded false (next s)) -> guarded false (sim_part fuel e c s next).
Proof.
  intros HN. unfold sim_part. destruct (negb _); [apply HN|]. destruct (ctor_throws e c KSim); [exact I|]. cbn [guarded].
  match goal with |- guarded false (sim_loop _ _ _ ?q0 ?stm0 ?r0 ?g0 ?ex0 ?old0) =>
    assert (HE : forall qq ss rr gg, guarded false (ex0 qq ss rr gg)); [|generalize q0 stm0 r0 g0; revert HE; generalize ex0] end.
  { intros qq ss rr gg. cbn zeta. destruct (criterion_eqb (r_eq rr) NotEquivalent), (onlySimulationCheckerConfigured c && simulationsFinished c rr);
      cbn [announce guarded]; apply HN. }
  intros ex HE. induction fuel as [|f IH]; intros q stm r g; cbn [sim_loop]; [exact I|].
  destruct (simulationsFinished c r); [apply HE|]. unfold if_not_done. cbn [guarded]. split; [|apply HE].
  destruct (e_gen e g) as [[x g']|]; [|exact I]. cbn [guarded]. split; [reflexivity|]. intros cut. cbn zeta.
  destruct (if cut then q else _); first [apply IH|apply HE|cbn; auto].
Qed.
Lemma g_exact k en v th s (next : left_over -> act) : (forall s, guarded false (next s)) -> guarded false (exact_part k en v th e c s next).
Proof.
  intros HN. unfold exact_part. destruct (negb en); [apply HN|]. unfold if_not_done. cbn [guarded]. split; [|apply HN].
  destruct (ctor_throws e c k); [exact I|]. cbn [guarded]. split; [|apply HN]. destruct th; [exact I|].
  cbn [guarded]. split; [reflexivity|]. intros cut. cbn zeta. destruct (if cut then NoInformation else mcrit v); cbn [announce guarded]; apply HN.
Qed.
Lemma g_end b (s : left_over) : guarded b (at_end s).
Proof. eexists. reflexivity. Qed.
Lemma g_zx s : guarded false (zx_part e c s).
Proof.
  unfold zx_part. destruct (negb (runZXChecker (exec c))); [apply g_end|]. unfold if_not_done. cbn [guarded]. split; [|apply g_end].
  destruct (e_transformable e); [|destruct (onlyZXCheckerConfigured c); [cbn [guarded]|]; apply g_end]. destruct (negb (e_zx_perm_ok e)); [exact I|].
  cbn [guarded]. split; [|apply g_end]. cbn [guarded]. split; [reflexivity|]. intros cut. cbn [announce guarded].
  destruct (if cut then NoInformation else _); try apply g_end; destruct (_ && _ && _); try exact I; apply g_end.
Qed.
Lemma g_sequential fuel s : guarded false (sequential_prog fuel e c s).
Proof. apply g_sim. intros s1. apply g_exact. intros s2. apply g_exact. intros s3. apply g_zx. Qed.
Lemma g_symbolic s : guarded false (symbolic_prog e c s).
Proof.
  unfold symbolic_prog, if_not_done. cbn [guarded]. split; [|apply g_end]. destruct (e_transformable e); [|exact I].
  destruct (negb _); [exact I|]. cbn [guarded]. split; [|apply g_end]. cbn [guarded]. split; [reflexivity|]. intros cut. cbn [announce guarded]. apply g_end.
Qed.

(** every behaviour of the flow is that of some schedule *)
Lemma real_gen (p : prog (outcome left_over)) n f fire notice : guarded false p -> own_only false p ->
  may_leave (s_init (hasTimeout c) p n f) (alone (fired (timed e fire notice) c) (interrupted (timed e fire notice) c) 0 false p).
Proof.
  intros HG HO. destruct (hasTimeout c) eqn:HT.
  - destruct (timed_fired e c fire notice) as [T1 T2]; [rewrite HT; discriminate|].
    rewrite <- (alone_ext p (fires fire) (fun i => fires fire i && notice i)); [|intros; apply T1|intros; apply T2].
    apply real with (b := false) (o := false); cbn; auto; [discriminate|]. intros; lia.
  - rewrite <- (alone_ext p (fires None) (fun i => fires None i && notice i)).
    + apply real with (b := false) (o := false); cbn; auto; discriminate.
    + intros i _. unfold fired. rewrite HT. reflexivity.
    + intros i _. unfold interrupted, fired. rewrite HT. reflexivity.
Qed.
Lemma real_sequential fuel m n f fire notice : m_cfg m = c -> m_done m = false ->
  may_leave (s_init (hasTimeout c) (sequential_prog fuel e c (of_mgr m)) n f) (remains (checkSequential fuel (timed e fire notice) m)).
Proof.
  intros HC HD. rewrite <- (sequential_eq e fire notice c fuel m HC HD). apply real_gen; [apply g_sequential|apply own_sequential].
Qed.
Lemma real_symbolic m n f fire notice : m_cfg m = c -> m_done m = false ->
  may_leave (s_init (hasTimeout c) (symbolic_prog e c (of_mgr m)) n f) (remains (checkSymbolic (timed e fire notice) m)).
Proof.
  intros HC HD. rewrite <- (symbolic_eq e fire notice c m HC HD). apply real_gen; [apply g_symbolic|apply own_symbolic].
Qed.
End Guard.
