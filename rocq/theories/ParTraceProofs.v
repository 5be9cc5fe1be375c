(** Where the parallel flow races: the invariant. *)
From Coq Require Import String List Bool NArith QArith Arith Lia.
From Verif Require Import Criterion Config SeqFlow ParFlow Trace TraceProofs RaceProofs ParTrace RaceSpec.
Import ListNotations.
Local Open Scope list_scope.
Local Open Scope nat_scope.

Notation blk t l := (map (@pair nat (what loc) t) l).

Section P.
Context {Stim Gen : Type}.
Notation env := (env Stim Gen).
Notation pst := (pst Stim Gen).
Notation tst := (tst Stim Gen).
Implicit Types (tr : trace loc) (T : tst) (pre post : list (what loc)).

Definition own T i : nat := if t_fut T i then t_tid T i else 0.
Definition everyone tr T p : Prop := known (clk tr) 0 p = true /\ forall i, known (clk tr) (own T i) p = true.
Definition owner tr T i p : Prop := known (clk tr) (own T i) p = true.
Definition after_decision tr p : Prop := exists d, d <= p /\ sets_done tr d.

Definition ok tr T p t a l : Prop :=
  match l with
  | LCircuits | LConfig => writes a = false \/ everyone tr T p
  | LGen => released (clk tr) mg p = true \/ everyone tr T p
  | LQueue => released (clk tr) mq p = true \/ everyone tr T p
  | LDone => a = Rd \/ (t = 0 /\ a = Wr /\ (everyone tr T p \/ after_decision tr p))
  | LSlot i => owner tr T i p \/ (t = 0 /\ a = Rd /\ after_decision tr p)
  | LChecker i => owner tr T i p
  | LFlag i => owner tr T i p \/ (t = 0 /\ a = AtomicWr /\ after_decision tr p)
  | LResults => t = 0
  end.

Record Inv tr T : Prop := mkInv {
  i_ok : forall p t a l, nth_error tr p = Some (t, Acc a l) -> ok tr T p t a l;
  i_next : 0 < t_next T;
  i_tid : forall i, t_fut T i = true -> 0 < t_tid T i < t_next T;
  i_inj : forall i j, t_fut T i = true -> t_fut T j = true -> t_tid T i = t_tid T j -> i = j;
  i_active : forall i x, nth_error (p_slots (t_st T)) i = Some x -> sl_w x <> WIdle -> t_fut T i = true;
  i_launch : forall ks, p_main (t_st T) = MLaunch ks -> forall i, p_next (t_st T) <= i -> t_fut T i = false;
  i_futlen : p_main (t_st T) = MOutOfBounds \/ forall i, t_fut T i = true -> i < length (p_slots (t_st T));
  i_queue : NoDup (p_queue (t_st T)) /\ forall i, In i (p_queue (t_st T)) -> (live (t_st T) = true -> t_fut T i = true) /\
              forall x, nth_error (p_slots (t_st T)) i = Some x -> sl_w x = WIdle;
  i_join : forall q u t, nth_error tr q = Some (u, Join t) -> t < t_next T /\
             (forall i, t_fut T i = true -> t_tid T i <> t) /\ (forall p w, nth_error tr p = Some (t, w) -> known (clk tr) 0 p = true);
  i_len : 0 < length tr;
  i_undone : p_done (t_st T) = false -> forall d, ~ sets_done tr d;
  i_mpc : (forall ks, p_main (t_st T) = MLaunch ks -> p_done (t_st T) = false) /\
          (p_main (t_st T) = MLoop -> p_done (t_st T) = false) /\
          (forall j, p_main (t_st T) = MSignal j -> exists d, sets_done tr d);
  i_secret : forall d, sets_done tr d ->
     (forall u, u <> 0 -> known (clk tr) u d = false) /\ (forall m, released (clk tr) m d = false) }.

(** a race that setAndSignalDone is part of *)
Definition good tr x i j : Prop :=
  cancellation_loc x /\ exists m w t a b, ((m = i /\ w = j) \/ (m = j /\ w = i)) /\
    nth_error tr m = Some (0, Acc a x) /\ nth_error tr w = Some (t, Acc b x) /\ t <> 0 /\ after_decision tr m /\ not_waited_for tr t j.

(** ** monotonicity *)
Lemma nth_app_old {A} (l l' : list A) i x : nth_error l i = Some x -> nth_error (l ++ l') i = Some x.
Proof. intros H. rewrite nth_error_app1; [assumption|]. apply nth_error_Some. congruence. Qed.
Lemma sets_done_mono tr tr' d : sets_done tr d -> sets_done (tr ++ tr') d.
Proof. intros [H1 H2]. split; [assumption|apply nth_app_old, H2]. Qed.
Lemma after_decision_mono tr tr' p : after_decision tr p -> after_decision (tr ++ tr') p.
Proof. intros (d & H1 & H2). exists d. split; [assumption|apply sets_done_mono, H2]. Qed.

Lemma good_mono tr tr' x i j : race_on tr x i j -> good tr x i j -> good (tr ++ tr') x i j.
Proof.
  intros R (HC & m & w & t & a & b & H1 & H2 & H3 & H4 & H5 & H6). split; [assumption|].
  exists m, w, t, a, b. split; [assumption|]. split; [apply nth_app_old, H2|]. split; [apply nth_app_old, H3|].
  split; [assumption|]. split; [apply after_decision_mono, H5|].
  intros q u Hq Hn. destruct R as (_ & t1 & u1 & a1 & b1 & _ & Hj & _). apply nth_lt in Hj.
  rewrite nth_error_app1 in Hn by lia. exact (H6 q u Hq Hn).
Qed.

(** how ownership moves during a block *)
Definition moves tr T t l T' : Prop := forall i p, known (clk tr) (own T i) p = true -> known (clk (tr ++ blk t l)) (own T' i) p = true.

Lemma ok_pres tr T t l T' p u a x : moves tr T t l T' -> ok tr T p u a x -> ok (tr ++ blk t l) T' p u a x.
Proof.
  intros HM. assert (E : everyone tr T p -> everyone (tr ++ blk t l) T' p).
  { intros [H1 H2]. split; [apply known_mono, H1|]. intros i. apply HM, H2. }
  destruct x; cbn; unfold owner; intros H.
  - destruct H; auto.
  - destruct H; auto.
  - destruct H as [H|H]; [left; apply released_mono, H|auto].
  - destruct H as [H|(H1 & H2 & [H3|H3])]; [auto| |]; right; (split; [assumption|]; split; [assumption|]); [left; apply E, H3|right; apply after_decision_mono, H3].
  - destruct H as [H|(H1 & H2 & H3)]; [left; apply HM, H|]. right. split; [assumption|]. split; [assumption|]. apply after_decision_mono, H3.
  - apply HM, H.
  - destruct H as [H|(H1 & H2 & H3)]; [left; apply HM, H|]. right. split; [assumption|]. split; [assumption|]. apply after_decision_mono, H3.
  - exact H.
  - destruct H as [H|H]; [left; apply released_mono, H|auto].
Qed.

Lemma moves_same tr T t l T' : (forall i, own T' i = own T i) -> moves tr T t l T'.
Proof. intros H i p HK. rewrite H. apply known_mono, HK. Qed.

(** positions of a block *)
Lemma new_pos tr t l q u a x : nth_error (tr ++ blk t l) q = Some (u, Acc a x) ->
  nth_error tr q = Some (u, Acc a x) \/
  (u = t /\ exists pre post, l = pre ++ Acc a x :: post /\ q = length tr + length pre).
Proof.
  intros H. destruct (Nat.lt_ge_cases q (length tr)) as [Hl|Hg].
  - left. rewrite nth_error_app1 in H by assumption. exact H.
  - right. rewrite nth_error_app2 in H by assumption. rewrite nth_error_map in H.
    destruct (nth_error l (q - length tr)) as [w|] eqn:E; [|discriminate]. cbn in H. injection H as -> ->. split; [reflexivity|].
    apply nth_error_split in E. destruct E as (pre & post & -> & HL). exists pre, post. split; [reflexivity|]. lia.
Qed.

Lemma nth_block tr t pre w post : nth_error (tr ++ blk t (pre ++ w :: post)) (length tr + length pre) = Some (t, w).
Proof.
  rewrite nth_error_app2 by lia. replace (length tr + length pre - length tr) with (length pre) by lia.
  rewrite map_app. cbn. rewrite nth_error_app2; rewrite map_length; [|lia]. rewrite Nat.sub_diag. reflexivity.
Qed.
Lemma known_new tr t pre w post : known (clk (tr ++ blk t (pre ++ w :: post))) t (length tr + length pre) = true.
Proof. eapply known_own. apply nth_block. Qed.
Lemma released_new tr t pre w mid m post :
  released (clk (tr ++ blk t (pre ++ w :: mid ++ Unlock m :: post))) m (length tr + length pre) = true.
Proof.
  replace (pre ++ w :: mid ++ Unlock m :: post) with ((pre ++ w :: mid) ++ Unlock m :: post) by (rewrite <- app_assoc; reflexivity).
  apply released_unlock, known_new.
Qed.
Lemma fork_new tr t pre w mid n post :
  known (clk (tr ++ blk t (pre ++ w :: mid ++ Fork n :: post))) n (length tr + length pre) = true.
Proof.
  replace (pre ++ w :: mid ++ Fork n :: post) with ((pre ++ w :: mid) ++ Fork n :: post) by (rewrite <- app_assoc; reflexivity).
  apply known_fork, known_new.
Qed.

(** somebody who waited for a thread knows its events *)
Lemma joined_known tr t u q i w : nth_error tr q = Some (t, Join u) -> nth_error tr i = Some (u, w) -> i < q -> known (clk tr) t i = true.
Proof.
  intros Hq Hi Hlt. assert (hb tr i q) as HB by (eapply hb_wait; eauto).
  apply hb_post in HB. destruct HB as (t' & w' & E & HK). rewrite Hq in E. injection E as <- <-.
  destruct (firstn_le_app tr (S q) (S q + length tr)) as (l' & E'); [lia|]. rewrite firstn_all2 in E' by lia.
  rewrite E'. apply known_mono, HK.
Qed.

(** ** races with a new event *)
Definition valid T t : Prop := t = 0 \/ exists k, t_fut T k = true /\ t = t_tid T k.
Lemma everyone_known tr T t p tr' : valid T t -> everyone tr T p -> known (clk (tr ++ tr')) t p = true.
Proof.
  intros HV [H1 H2]. apply known_mono. destruct HV as [->|(k & Hk & ->)]; [exact H1|].
  specialize (H2 k). unfold own in H2. rewrite Hk in H2. exact H2.
Qed.
(** thread [t], after [pre], knows what the owner of slot [k] knew *)
Definition knows tr T t pre k : Prop := forall p, known (clk tr) (own T k) p = true -> known (clk (tr ++ blk t pre)) t p = true.

(** what has to be shown for an access of a block *)
Definition safe tr T t pre b x : Prop :=
  match x with
  | LResults => t = 0
  | LCircuits | LConfig => b = Rd
  | LGen => In (Lock mg) pre
  | LQueue => In (Lock mq) pre
  | LDone => b = Rd \/ (t = 0 /\ b = Wr)
  | LChecker k => knows tr T t pre k
  | LSlot k => knows tr T t pre k \/ (t = 0 /\ b = Rd /\ exists d, sets_done tr d)
  | LFlag k => knows tr T t pre k \/ (t = 0 /\ b = AtomicWr /\ exists d, sets_done tr d)
  end.

Lemma worker_not_waited tr T t (pre l : list (what loc)) k i : Inv tr T -> t_fut T k = true -> t = t_tid T k -> (forall u, ~ In (Join u) l) ->
  i <= length tr + length pre -> not_waited_for (tr ++ blk t l) t i.
Proof.
  intros HI Hk -> HJ Hi q u Hq Hn. destruct (Nat.lt_ge_cases q (length tr)) as [Hl|Hg].
  - rewrite nth_error_app1 in Hn by assumption. destruct (i_join _ _ HI _ _ _ Hn) as (_ & H2 & _). exact (H2 k Hk eq_refl).
  - rewrite nth_error_app2 in Hn by assumption. apply nth_error_In in Hn. apply in_map_iff in Hn. destruct Hn as (y & E & Hy).
    injection E as _ ->. exact (HJ _ Hy).
Qed.

Lemma main_not_waited tr T pre post b x u i a : Inv tr T -> nth_error tr i = Some (u, Acc a x) ->
  known (clk (tr ++ blk 0 pre)) 0 i = false -> not_waited_for (tr ++ blk 0 (pre ++ Acc b x :: post)) u (length tr + length pre).
Proof.
  intros HI Hi HK q v Hq Hn.
  assert (Hn' : nth_error (tr ++ blk 0 pre) q = Some (v, Join u)).
  { rewrite map_app, app_assoc in Hn. rewrite nth_error_app1 in Hn; [exact Hn|]. rewrite app_length, map_length. lia. }
  destruct (Nat.lt_ge_cases q (length tr)) as [Hl|Hg].
  - rewrite nth_error_app1 in Hn' by assumption. destruct (i_join _ _ HI _ _ _ Hn') as (_ & _ & H3).
    rewrite (known_mono _ _ _ _ (H3 _ _ Hi)) in HK. discriminate.
  - assert (v = 0) as ->.
    { rewrite nth_error_app2 in Hn' by assumption. apply nth_error_In in Hn'. apply in_map_iff in Hn'. destruct Hn' as (y & E & _). congruence. }
    apply nth_lt in Hi as Hi'. rewrite (joined_known _ _ _ _ i (Acc a x) Hn') in HK; [discriminate| |lia].
    rewrite nth_error_app1 by assumption. exact Hi.
Qed.

Lemma block_races tr T t l : Inv tr T ->
  t = 0 \/ (exists k, t_fut T k = true /\ t = t_tid T k /\ forall u, ~ In (Join u) l) ->
  (forall pre b x post, l = pre ++ Acc b x :: post -> safe tr T t pre b x) ->
  (forall x i j, race_on tr x i j -> good tr x i j) ->
  forall x i j, race_on (tr ++ blk t l) x i j -> good (tr ++ blk t l) x i j.
Proof.
  intros HI HV HS HG x i j HR. destruct (race_on_block _ _ _ _ _ _ HR) as [HR'|H].
  { apply good_mono; [assumption|]. apply HG, HR'. }
  destruct H as (pre & post & b & u & a & -> & -> & Hi & Hn & Hut & HC & HK).
  specialize (HS pre b x post eq_refl). pose proof (i_ok _ _ HI _ _ _ _ Hn) as HO.
  assert (HV' : valid T t) by (destruct HV as [->|(k & H1 & H2 & _)]; [left; reflexivity|right; eauto]).
  assert (EV : everyone tr T i -> False).
  { intros H. rewrite (everyone_known _ _ _ _ _ HV' H) in HK. discriminate. }
  assert (KN : forall k, knows tr T t pre k -> owner tr T k i -> False).
  { intros k H1 H2. rewrite (H1 _ H2) in HK. discriminate. }
  (* the two shapes of a race *)
  assert (G1 : u = 0 -> after_decision tr i -> cancellation_loc x -> good (tr ++ blk t (pre ++ Acc b x :: post)) x i (length tr + length pre)).
  { intros -> HD HL. split; [assumption|]. exists i, (length tr + length pre), t, a, b. split; [left; split; reflexivity|].
    split; [apply nth_app_old, Hn|]. split; [apply nth_block|]. split; [auto|]. split; [apply after_decision_mono, HD|].
    destruct HV as [->|(k & H1 & H2 & H3)]; [contradiction|]. eapply worker_not_waited; eauto. }
  assert (G2 : t = 0 -> after_decision (tr ++ blk t (pre ++ Acc b x :: post)) (length tr + length pre) -> cancellation_loc x ->
     good (tr ++ blk t (pre ++ Acc b x :: post)) x i (length tr + length pre)).
  { intros -> HD HL. split; [assumption|]. exists (length tr + length pre), i, u, b, a. split; [right; split; reflexivity|].
    split; [apply nth_block|]. split; [apply nth_app_old, Hn|]. split; [assumption|]. split; [assumption|].
    eapply main_not_waited; eauto. }
  assert (AD : (exists d, sets_done tr d) -> after_decision (tr ++ blk t (pre ++ Acc b x :: post)) (length tr + length pre)).
  { intros (d & Hd). exists d. split; [destruct Hd as [_ Hd]; apply nth_lt in Hd; lia|apply sets_done_mono, Hd]. }
  destruct x; cbn in HS, HO.
  - subst b. destruct HO as [HO|HO]; [|destruct (EV HO)]. exfalso. unfold conflicting in HC. rewrite HO in HC. discriminate.
  - subst b. destruct HO as [HO|HO]; [|destruct (EV HO)]. exfalso. unfold conflicting in HC. rewrite HO in HC. discriminate.
  - destruct HO as [HO|HO]; [|destruct (EV HO)]. rewrite (known_lock _ _ _ _ _ HS HO) in HK. discriminate.
  - destruct HO as [->|(-> & -> & HO)].
    + destruct HS as [->|(-> & ->)]; [discriminate HC|]. apply G2; [reflexivity| |left; reflexivity].
      exists (length tr + length pre). split; [lia|]. split; [pose proof (i_len _ _ HI); lia|]. apply nth_block.
    + destruct HO as [HO|HO]; [destruct (EV HO)|]. apply G1; [reflexivity|assumption|left; reflexivity].
  - destruct HO as [HO|(-> & -> & HO)].
    + destruct HS as [HS|(-> & -> & HS)]; [destruct (KN _ HS HO)|]. apply G2; [reflexivity|apply AD, HS|right; left; eauto].
    + apply G1; [reflexivity|assumption|right; left; eauto].
  - destruct (KN _ HS HO).
  - destruct HO as [HO|(-> & -> & HO)].
    + destruct HS as [HS|(-> & -> & HS)]; [destruct (KN _ HS HO)|]. apply G2; [reflexivity|apply AD, HS|right; right; eauto].
    + apply G1; [reflexivity|assumption|right; right; eauto].
  - congruence.
  - destruct HO as [HO|HO]; [|destruct (EV HO)]. rewrite (known_lock _ _ _ _ _ HS HO) in HK. discriminate.
Qed.
End P.
