(** Where the parallel flow races: preservation of the invariant. *)
From Coq Require Import String List Bool NArith QArith Arith Lia.
From Verif Require Import Criterion Config SeqFlow ParFlow Trace TraceProofs RaceProofs ParTrace RaceSpec ParTraceProofs.
Import ListNotations.
Local Open Scope list_scope.
Local Open Scope nat_scope.

(** a condition on every element of a list, its prefix and its suffix *)
Fixpoint every {A} (P : list A -> A -> list A -> Prop) (pre l : list A) : Prop :=
  match l with [] => True | w :: l' => P pre w l' /\ every P (pre ++ [w]) l' end.
Lemma every_split {A} (P : list A -> A -> list A -> Prop) pre0 pre w post : every P pre0 (pre ++ w :: post) -> P (pre0 ++ pre) w post.
Proof.
  revert pre0; induction pre as [|v pre IH]; cbn; intros pre0 [H1 H2]; [rewrite app_nil_r; exact H1|].
  specialize (IH _ H2). rewrite <- app_assoc in IH. exact IH.
Qed.
Lemma every_app {A} (P : list A -> A -> list A -> Prop) pre l l' : 
  every (fun a w b => P a w (b ++ l')) pre l -> every P (pre ++ l) l' -> every P pre (l ++ l').
Proof.
  revert pre; induction l as [|w l IH]; cbn; intros pre H1 H2; [rewrite app_nil_r in H2; exact H2|].
  destruct H1 as [H1 H1']. split; [exact H1|]. apply IH; [exact H1'|]. rewrite <- app_assoc. exact H2.
Qed.
Lemma every_impl {A} (P Q : list A -> A -> list A -> Prop) pre l : (forall a w b, In w l -> incl pre a -> P a w b -> Q a w b) -> every P pre l -> every Q pre l.
Proof.
  revert pre; induction l as [|w l IH]; cbn; intros pre H HP; [exact I|]. destruct HP as [H1 H2]. split; [apply H; auto using incl_refl|].
  apply IH; [|exact H2]. intros a v b Hv Hi. apply H; [right; exact Hv|]. intros x Hx. apply Hi, in_or_app. left. exact Hx.
Qed.
Lemma every_in {A} (P : list A -> A -> list A -> Prop) pre l w : every P pre l -> In w l -> exists a b, P a w b.
Proof. intros H Hi. apply in_split in Hi. destruct Hi as (a & b & ->). apply every_split in H. eauto. Qed.
Lemma every_all {A} (P : list A -> A -> list A -> Prop) pre l : (forall a w b, In w l -> incl pre a -> P a w b) -> every P pre l.
Proof.
  revert pre; induction l as [|w l IH]; cbn; intros pre H; [exact I|]. split; [apply H; auto using incl_refl|].
  apply IH. intros a v b Hv Hi. apply H; [right; exact Hv|]. intros x Hx. apply Hi, in_or_app. left. exact Hx.
Qed.

Section P.
Context {Stim Gen : Type}.
Notation env := (env Stim Gen).
Notation pst := (pst Stim Gen).
Notation tst := (tst Stim Gen).
Implicit Types (tr : trace loc) (T : tst) (pre post : list (what loc)).

Lemma known_lt tr u p : known (clk tr) u p = true -> p < length tr.
Proof.
  intros H. destruct (proj1 (clk_sound tr) _ _ H) as (q & v & w & H1 & H2 & _). apply nth_lt in H2.
  destruct H1 as [->|H1]; [exact H2|apply hb_lt in H1; lia].
Qed.
Lemma released_lt tr u p : released (clk tr) u p = true -> p < length tr.
Proof.
  intros H. destruct (proj2 (clk_sound tr) _ _ H) as (q & v & H1 & H2). apply nth_lt in H2.
  destruct H1 as [->|H1]; [exact H2|apply hb_lt in H1; lia].
Qed.

Lemma new_event tr t l q u w : nth_error (tr ++ blk t l) q = Some (u, w) ->
  nth_error tr q = Some (u, w) \/ (u = t /\ length tr <= q /\ In w l).
Proof.
  intros H. destruct (Nat.lt_ge_cases q (length tr)) as [Hl|Hg].
  - left. rewrite nth_error_app1 in H by assumption. exact H.
  - right. rewrite nth_error_app2 in H by assumption. apply nth_error_In in H. apply in_map_iff in H.
    destruct H as (y & E & Hy). injection E as -> ->. auto.
Qed.

(** ** blocks of workers *)
Definition wcond (i : nat) pre (w : what loc) post : Prop :=
  match w with
  | Acc a x =>
      match x with
      | LCircuits | LConfig | LDone => a = Rd
      | LGen => In (Lock mg) pre /\ In (Unlock mg) post
      | LQueue => In (Lock mq) pre /\ In (Unlock mq) post
      | LSlot k | LChecker k | LFlag k => k = i
      | LResults => False
      end
  | Fork _ | Join _ => False
  | _ => True
  end.

Lemma in_mid {A} (x : A) l : In x l -> exists a b, l = a ++ x :: b.
Proof. apply in_split. Qed.

Lemma worker_block tr T i l : Inv tr T -> t_fut T i = true -> every (wcond i) [] l ->
  (forall x p q, race_on tr x p q -> good tr x p q) ->
  (forall x p q, race_on (tr ++ blk (t_tid T i) l) x p q -> good (tr ++ blk (t_tid T i) l) x p q) /\
  (forall p t a x, nth_error (tr ++ blk (t_tid T i) l) p = Some (t, Acc a x) -> ok (tr ++ blk (t_tid T i) l) T p t a x).
Proof.
  intros HI Hf HE HG. set (t := t_tid T i).
  assert (NJ : forall u, ~ In (Join u) l) by (intros u Hu; destruct (every_in _ _ _ _ HE Hu) as (? & ? & H); exact H).
  assert (OW : own T i = t) by (unfold own; rewrite Hf; reflexivity).
  split.
  - apply block_races with (T := T); [assumption| |intros pre b x post ->; apply every_split in HE; cbn in HE|assumption].
    + right. exists i. auto.
    + destruct x; cbn; try (destruct HE; assumption); try assumption.
      * left. assumption.
      * subst. left. intros p Hp. rewrite OW in Hp. apply known_mono, Hp.
      * subst. intros p Hp. rewrite OW in Hp. apply known_mono, Hp.
      * subst. left. intros p Hp. rewrite OW in Hp. apply known_mono, Hp.
  - intros p u a x Hp. apply new_pos in Hp. destruct Hp as [Hp|(-> & pre & post & -> & ->)].
    + eapply ok_pres; [|apply (i_ok _ _ HI), Hp]. apply moves_same. reflexivity.
    + apply every_split in HE. cbn in HE. destruct x; cbn; unfold owner.
      * subst a. left. reflexivity.
      * subst a. left. reflexivity.
      * destruct HE as [_ HE]. apply in_split in HE. destruct HE as (m1 & m2 & ->). left. apply released_new.
      * subst a. left. reflexivity.
      * subst. left. rewrite OW. apply known_new.
      * subst. rewrite OW. apply known_new.
      * subst. left. rewrite OW. apply known_new.
      * destruct HE.
      * destruct HE as [_ HE]. apply in_split in HE. destruct HE as (m1 & m2 & ->). left. apply released_new.
Qed.

Lemma worker_inv tr T i l s' : Inv tr T -> t_fut T i = true -> every (wcond i) [] l ->
  length (p_slots s') = length (p_slots (t_st T)) ->
  (forall j x, nth_error (p_slots s') j = Some x -> sl_w x <> WIdle -> t_fut T j = true) ->
  (NoDup (p_queue s') /\ forall j, In j (p_queue s') -> (live s' = true -> t_fut T j = true) /\ forall x, nth_error (p_slots s') j = Some x -> sl_w x = WIdle) ->
  (p_main s' = p_main (t_st T) \/ p_main s' = MTerminated) -> p_next s' = p_next (t_st T) -> p_done s' = p_done (t_st T) ->
  (p_main (t_st T) <> MOutOfBounds) ->
  (forall x p q, race_on tr x p q -> good tr x p q) ->
  Inv (tr ++ blk (t_tid T i) l) (with_st s' T) /\
  (forall x p q, race_on (tr ++ blk (t_tid T i) l) x p q -> good (tr ++ blk (t_tid T i) l) x p q).
Proof.
  intros HI Hf HE HL HA HQ HM HN HD HB HG. destruct (worker_block tr T i l HI Hf HE HG) as [HR HO]. split; [|exact HR].
  assert (NJ : forall u, ~ In (Join u) l) by (intros u Hu; destruct (every_in _ _ _ _ HE Hu) as (? & ? & H); exact H).
  pose proof (i_tid _ _ HI i Hf) as Ht.
  constructor; cbn [with_st t_st t_tid t_fut t_next]; try assumption.
  - exact (i_next _ _ HI).
  - exact (i_tid _ _ HI).
  - exact (i_inj _ _ HI).
  - intros ks Hks. rewrite HN. destruct HM as [HM|HM]; rewrite HM in Hks; [|discriminate]. exact (i_launch _ _ HI ks Hks).
  - right. rewrite HL. destruct (i_futlen _ _ HI) as [H|H]; [contradiction|exact H].
  - intros q u t Hq. apply new_event in Hq. destruct Hq as [Hq|(_ & _ & Hq)]; [|destruct (NJ _ Hq)].
    destruct (i_join _ _ HI _ _ _ Hq) as (H1 & H2 & H3). split; [exact H1|]. split; [exact H2|].
    intros p w Hp. apply new_event in Hp. destruct Hp as [Hp|(-> & _)]; [apply known_mono, (H3 _ _ Hp)|].
    destruct (H2 i Hf eq_refl).
  - rewrite app_length. pose proof (i_len _ _ HI). lia.
  - rewrite HD. intros Hd d [H1 H2]. apply new_event in H2. destruct H2 as [H2|(E & _)].
    + apply (i_undone _ _ HI Hd d). split; assumption.
    + unfold main_thread in E. lia.
  - destruct (i_mpc _ _ HI) as (M1 & M2 & M3). rewrite HD. split; [|split].
    + intros ks Hks. destruct HM as [HM|HM]; rewrite HM in Hks; [|discriminate]. eauto.
    + intros Hks. destruct HM as [HM|HM]; rewrite HM in Hks; [|discriminate]. eauto.
    + intros j Hks. destruct HM as [HM|HM]; rewrite HM in Hks; [|discriminate]. destruct (M3 j Hks) as (d & Hd). exists d. apply sets_done_mono, Hd.
  - intros d [H1 H2]. apply new_event in H2. destruct H2 as [H2|(E & _)]; [|unfold main_thread in E; lia].
    destruct (i_secret _ _ HI d (conj H1 H2)) as [S1 S2]. apply block_unknown_other; auto; [eapply nth_lt; exact H2|lia].
Qed.

(** ** blocks of the main thread *)
Definition mcond tr T T' pre (w : what loc) post : Prop :=
  match w with
  | Acc a x =>
      match x with
      | LCircuits | LGen => False
      | LConfig => a = Rd
      | LDone => a = Rd \/ (a = Wr /\ (forall u, ~ In (Fork u) post) /\ (forall m, ~ In (Unlock m) post))
      | LQueue => In (Lock mq) pre /\ In (Unlock mq) post
      | LSlot k => ((t_fut T k = true -> In (Join (t_tid T k)) pre) /\ (own T' k = 0 \/ In (Fork (own T' k)) post)) \/
                   (a = Rd /\ exists d, sets_done tr d)
      | LChecker k => (t_fut T k = true -> In (Join (t_tid T k)) pre) /\ (own T' k = 0 \/ In (Fork (own T' k)) post)
      | LFlag k => a = AtomicWr /\ exists d, sets_done tr d
      | LResults => True
      end
  | Fork n => n = t_next T
  | Join u => u < t_next T' /\ forall i, t_fut T' i = true -> t_tid T' i <> u
  | _ => True
  end.

Lemma main_block tr T l T' : Inv tr T -> every (mcond tr T T') [] l -> moves tr T 0 l T' ->
  (forall x p q, race_on tr x p q -> good tr x p q) ->
  (forall x p q, race_on (tr ++ blk 0 l) x p q -> good (tr ++ blk 0 l) x p q) /\
  (forall p t a x, nth_error (tr ++ blk 0 l) p = Some (t, Acc a x) -> ok (tr ++ blk 0 l) T' p t a x).
Proof.
  intros HI HE HMv HG.
  assert (KN : forall pre k, (t_fut T k = true -> In (Join (t_tid T k)) pre) -> knows tr T 0 pre k).
  { intros pre k H p. unfold own. destruct (t_fut T k) eqn:E; intros Hp; [|apply known_mono, Hp].
    eapply known_join; [apply H; reflexivity|exact Hp]. }
  assert (OW : forall pre w post k, own T' k = 0 \/ In (Fork (own T' k)) post -> owner (tr ++ blk 0 (pre ++ w :: post)) T' k (length tr + length pre)).
  { intros pre w post k [H|H]; unfold owner; [rewrite H; apply known_new|].
    apply in_split in H. destruct H as (m1 & m2 & ->). apply fork_new. }
  assert (AD : forall pre w post, (exists d, sets_done tr d) -> after_decision (tr ++ blk 0 (pre ++ w :: post)) (length tr + length pre)).
  { intros pre w post (d & Hd). exists d. split; [destruct Hd as [_ Hd]; apply nth_lt in Hd; lia|apply sets_done_mono, Hd]. }
  split.
  - apply block_races with (T := T); [assumption|left; reflexivity|intros pre b x post ->; apply every_split in HE; cbn in HE|assumption].
    destruct x; cbn; try contradiction; try (destruct HE; assumption); try reflexivity; try assumption.
    + destruct HE as [HE|(HE & _)]; auto.
    + destruct HE as [[HE _]|[H1 H2]]; [left; apply KN, HE|right; auto].
    + apply KN, HE.
    + right. destruct HE. auto.
  - intros p u a x Hp. apply new_pos in Hp. destruct Hp as [Hp|(-> & pre & post & -> & ->)].
    + eapply ok_pres; [exact HMv|apply (i_ok _ _ HI), Hp].
    + apply every_split in HE. cbn in HE. destruct x; cbn; try contradiction.
      * subst a. left. reflexivity.
      * destruct HE as [->|(-> & _)]; [left; reflexivity|]. right. split; [reflexivity|]. split; [reflexivity|]. right.
        exists (length tr + length pre). split; [lia|]. split; [pose proof (i_len _ _ HI); lia|apply nth_block].
      * destruct HE as [[_ HE]|[-> HE]]; [left; apply OW, HE|right; auto].
      * apply OW, HE.
      * right. destruct HE. auto.
      * reflexivity.
      * destruct HE as [_ HE]. apply in_split in HE. destruct HE as (m1 & m2 & ->). left. apply released_new.
Qed.

Lemma main_inv tr T l T2 s' : let T' := with_st s' T2 in
  Inv tr T -> every (mcond tr T T') [] l -> moves tr T 0 l T' ->
  (forall i, t_fut T2 i = true -> 0 < t_tid T2 i < t_next T2) ->
  (forall i j, t_fut T2 i = true -> t_fut T2 j = true -> t_tid T2 i = t_tid T2 j -> i = j) ->
  (forall i x, nth_error (p_slots s') i = Some x -> sl_w x <> WIdle -> t_fut T2 i = true) ->
  (forall ks, p_main s' = MLaunch ks -> forall i, p_next s' <= i -> t_fut T2 i = false) ->
  (p_main s' = MOutOfBounds \/ forall i, t_fut T2 i = true -> i < length (p_slots s')) ->
  (NoDup (p_queue s') /\ forall i, In i (p_queue s') -> (live s' = true -> t_fut T2 i = true) /\
              forall x, nth_error (p_slots s') i = Some x -> sl_w x = WIdle) ->
  (forall i, t_fut T2 i = true -> (t_fut T i = true /\ t_tid T2 i = t_tid T i) \/ t_next T <= t_tid T2 i) -> t_next T <= t_next T2 ->
  (p_done s' = false -> p_done (t_st T) = false /\ ~ In (wr LDone) l) ->
  (forall ks, p_main s' = MLaunch ks -> p_done s' = false) -> (p_main s' = MLoop -> p_done s' = false) ->
  (forall j, p_main s' = MSignal j -> In (wr LDone) l \/ exists d, sets_done tr d) ->
  (p_done (t_st T) = true -> (forall u, ~ In (Fork u) l) /\ (forall m, ~ In (Unlock m) l)) ->
  (forall x p q, race_on tr x p q -> good tr x p q) ->
  Inv (tr ++ blk 0 l) T' /\ (forall x p q, race_on (tr ++ blk 0 l) x p q -> good (tr ++ blk 0 l) x p q).
Proof.
  intros T' HI HE HMv HT HJ HA HLa HFl HQ HOld HNx HUn HM1 HM2 HM3 HSec HG.
  destruct (main_block tr T l T' HI HE HMv HG) as [HR HO]. split; [|exact HR].
  constructor; cbn [T' with_st t_st t_tid t_fut t_next]; try assumption.
  - pose proof (i_next _ _ HI). lia.
  - intros q u t Hq. apply new_event in Hq. destruct Hq as [Hq|(-> & _ & Hq)].
    + destruct (i_join _ _ HI _ _ _ Hq) as (H1 & H2 & H3). split; [lia|]. split.
      * intros i Hi. destruct (HOld i Hi) as [[H4 H5]|H4]; [rewrite H5; apply H2, H4|lia].
      * intros p w Hp. destruct (new_event _ _ _ _ _ _ Hp) as [Hp'|(-> & _)]; [apply known_mono, (H3 _ _ Hp')|eapply known_own; exact Hp].
    + destruct (every_in _ _ _ _ HE Hq) as (? & ? & H1 & H2). split; [exact H1|]. split; [exact H2|].
      intros p w Hp. destruct (new_event _ _ _ _ _ _ Hp) as [Hp'|(-> & _)]; [|eapply known_own; exact Hp].
      eapply known_join; [exact Hq|eapply known_own; exact Hp'].
  - rewrite app_length. pose proof (i_len _ _ HI). lia.
  - intros Hd d [H1 H2]. destruct (HUn Hd) as [H3 H4]. apply new_event in H2. destruct H2 as [H2|(_ & _ & H2)]; [|contradiction].
    apply (i_undone _ _ HI H3 d). split; assumption.
  - split; [exact HM1|]. split; [exact HM2|]. intros j Hj. destruct (HM3 j Hj) as [H|(d & H)].
    + apply in_split in H. destruct H as (a & b & ->). exists (length tr + length a). split; [pose proof (i_len _ _ HI); lia|apply nth_block].
    + exists d. apply sets_done_mono, H.
  - intros d [H1 H2].
    assert (UN : forall tr0 u, known (clk tr0) u (length tr0) = false).
    { intros tr0 u. destruct (known (clk tr0) u (length tr0)) eqn:E; [|reflexivity]. apply known_lt in E. lia. }
    assert (UR : forall tr0 u, released (clk tr0) u (length tr0) = false).
    { intros tr0 u. destruct (released (clk tr0) u (length tr0)) eqn:E; [|reflexivity]. apply released_lt in E. lia. }
    destruct (new_pos _ _ _ _ _ _ _ H2) as [H2'|(_ & pre & post & -> & ->)].
    + destruct (i_secret _ _ HI d (conj H1 H2')) as [S1 S2].
      destruct (p_done (t_st T)) eqn:ED; [|destruct (i_undone _ _ HI ED d (conj H1 H2'))].
      destruct (HSec eq_refl) as [F1 F2]. apply block_unknown; auto. eapply nth_lt; exact H2'.
    + apply every_split in HE. cbn in HE. destruct HE as [HE|(_ & F1 & F2)]; [discriminate|].
      replace (tr ++ blk 0 (pre ++ Acc Wr LDone :: post)) with (((tr ++ blk 0 pre) ++ [(0, Acc Wr LDone)]) ++ blk 0 post)
        by (rewrite map_app, <- !app_assoc; reflexivity).
      assert (HL : length tr + length pre = length (tr ++ blk 0 pre)) by (rewrite app_length, map_length; reflexivity).
      rewrite HL. apply block_unknown; auto.
      * rewrite !app_length. cbn [length]. lia.
      * intros u Hu. rewrite clk_snoc. cbn. destruct (Nat.eqb_spec u 0); [contradiction|]. rewrite UN. reflexivity.
      * intros m. rewrite clk_snoc. cbn. rewrite UR. reflexivity.
Qed.
End P.
