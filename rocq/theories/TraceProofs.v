(** The computed order of Trace.v is happens-before. *)
From Coq Require Import List Bool Arith Lia.
From Verif Require Import Trace.
Import ListNotations.

Section Proofs.
Context {L : Type}.
Implicit Types (tr : trace L).

Lemma clk_snoc tr e : clk (tr ++ [e]) = ck_step (clk tr) e.
Proof. unfold clk. rewrite fold_left_app. reflexivity. Qed.

Lemma clk_len tr : ck_len (clk tr) = length tr.
Proof.
  induction tr as [|e tr IH] using rev_ind; [reflexivity|].
  rewrite clk_snoc, app_length. destruct e as [t w]. cbn. rewrite IH. lia.
Qed.

Lemma nth_snoc_old tr e i x : nth_error tr i = Some x -> nth_error (tr ++ [e]) i = Some x.
Proof. intros H. rewrite nth_error_app1; [assumption|]. apply nth_error_Some. congruence. Qed.
Lemma nth_snoc_new tr e : nth_error (tr ++ [e]) (length tr) = Some e.
Proof. rewrite nth_error_app2 by lia. rewrite Nat.sub_diag. reflexivity. Qed.
Lemma nth_lt tr i x : nth_error tr i = Some x -> i < length tr.
Proof. intros H. apply nth_error_Some. congruence. Qed.

Lemma hb_mono tr tr' i j : hb tr i j -> hb (tr ++ tr') i j.
Proof.
  assert (G : forall k x, nth_error tr k = Some x -> nth_error (tr ++ tr') k = Some x).
  { intros k x Hk. rewrite nth_error_app1; [assumption|]. apply nth_error_Some. congruence. }
  induction 1.
  - eapply hb_program; eauto.
  - eapply hb_start; eauto.
  - eapply hb_wait; eauto.
  - eapply hb_start_wait; eauto.
  - eapply hb_mutex; eauto.
  - eapply hb_trans; eauto.
Qed.

(** ** soundness *)
Definition upto tr (p q : nat) : Prop := p = q \/ hb tr p q.
Lemma upto_mono tr tr' p q : upto tr p q -> upto (tr ++ tr') p q.
Proof. intros [->|H]; [left; reflexivity|right; apply hb_mono, H]. Qed.
Lemma upto_hb tr p q r : upto tr p q -> hb tr q r -> hb tr p r.
Proof. intros [->|H] H'; [assumption|eapply hb_trans; eassumption]. Qed.

Lemma clk_sound tr :
  (forall t p, known (clk tr) t p = true ->
     exists q u w, upto tr p q /\ nth_error tr q = Some (u, w) /\ (u = t \/ w = Fork t)) /\
  (forall m p, released (clk tr) m p = true ->
     exists q u, upto tr p q /\ nth_error tr q = Some (u, Unlock m)).
Proof.
  induction tr as [|[t w] tr [IK IR]] using rev_ind; [split; intros; discriminate|].
  rewrite clk_snoc. cbn [ck_step known released]. rewrite clk_len.
  assert (OLD : forall t p, known (clk tr) t p = true ->
     exists q u w', upto (tr ++ [(t, w)]) p q /\ nth_error (tr ++ [(t, w)]) q = Some (u, w') /\ (u = t \/ w' = Fork t)) by
   (intros t0 p H; destruct (IK t0 p H) as (q & u & w' & H1 & H2 & H3); exists q, u, w'; split; [apply upto_mono; exact H1|]; split; [apply nth_snoc_old; exact H2|exact H3]).
  assert (OLD' : forall t0 p, known (clk tr) t0 p = true ->
     exists q u w', upto (tr ++ [(t, w)]) p q /\ nth_error (tr ++ [(t, w)]) q = Some (u, w') /\ (u = t0 \/ w' = Fork t0) /\ q < length tr) by
   (intros t0 p H; destruct (IK t0 p H) as (q & u & w' & H1 & H2 & H3); exists q, u, w'; split; [apply upto_mono; exact H1|]; split; [apply nth_snoc_old; exact H2|split; [exact H3|eapply nth_lt; exact H2]]).
  assert (MINE : forall p, known (clk tr) t p || (p =? length tr) ||
      match w with Join u => known (clk tr) u p | Lock m => released (clk tr) m p | _ => false end = true ->
      upto (tr ++ [(t, w)]) p (length tr)).
  { intros p H. apply orb_true_iff in H. destruct H as [H|H]; [apply orb_true_iff in H; destruct H as [H|H]|].
    - destruct (OLD' _ _ H) as (q & u & w' & H1 & H2 & H3 & H4). right. eapply upto_hb; [exact H1|].
      destruct H3 as [-> | ->]; [eapply hb_program|eapply hb_start]; eauto using nth_snoc_new.
    - apply Nat.eqb_eq in H. left. exact H.
    - destruct w; try discriminate.
      + destruct (OLD' _ _ H) as (q & u & w' & H1 & H2 & H3 & H4). right. eapply upto_hb; [exact H1|].
        destruct H3 as [-> | ->]; [eapply hb_wait|eapply hb_start_wait]; eauto using nth_snoc_new.
      + destruct (IR _ _ H) as (q & u & H1 & H2). right. eapply upto_hb; [apply upto_mono; exact H1|].
        eapply hb_mutex; [|apply nth_snoc_old; exact H2|apply nth_snoc_new]. eapply nth_lt; exact H2. }
  split.
  - intros u p H. destruct (u =? t) eqn:E.
    + apply Nat.eqb_eq in E. subst u. exists (length tr), t, w. split; [apply MINE; exact H|]. split; [apply nth_snoc_new|left; reflexivity].
    + apply orb_true_iff in H. destruct H as [H|H].
      * destruct (OLD' _ _ H) as (q & v & w' & H1 & H2 & H3 & _). eauto 8.
      * destruct w; try discriminate. apply andb_true_iff in H. destruct H as [H0 H]. apply Nat.eqb_eq in H0. subst t0.
        exists (length tr), t, (Fork u). split; [apply MINE; exact H|]. split; [apply nth_snoc_new|right; reflexivity].
  - intros m p H. apply orb_true_iff in H. destruct H as [H|H].
    + destruct (IR _ _ H) as (q & u & H1 & H2). exists q, u. split; [apply upto_mono; exact H1|apply nth_snoc_old; exact H2].
    + destruct w; try discriminate. apply andb_true_iff in H. destruct H as [H0 H]. apply Nat.eqb_eq in H0. subst m0.
      exists (length tr), t. split; [apply MINE; exact H|apply nth_snoc_new].
Qed.

Lemma known_hb tr t w p : known (clk tr) t p = true -> hb (tr ++ [(t, w)]) p (length tr).
Proof.
  intros H. destruct (proj1 (clk_sound tr) t p H) as (q & u & w' & H1 & H2 & H3).
  eapply upto_hb; [apply upto_mono; exact H1|].
  destruct H3 as [-> | ->]; [eapply hb_program|eapply hb_start]; eauto using nth_snoc_new, nth_snoc_old, nth_lt.
Qed.

(** ** completeness *)
Lemma known_mono_step (c : clocks) (e : event L) t p : known c t p = true -> known (ck_step c e) t p = true.
Proof. destruct e as [u w]. cbn. intros H. destruct (t =? u) eqn:E; [apply Nat.eqb_eq in E; subst u|]; rewrite H; reflexivity. Qed.
Lemma released_mono_step (c : clocks) (e : event L) m p : released c m p = true -> released (ck_step c e) m p = true.
Proof. destruct e as [u w]. cbn. intros H. rewrite H. reflexivity. Qed.
Lemma known_mono tr tr' t p : known (clk tr) t p = true -> known (clk (tr ++ tr')) t p = true.
Proof.
  induction tr' as [|e tr' IH] using rev_ind; intros H; [rewrite app_nil_r; assumption|].
  rewrite app_assoc, clk_snoc. apply known_mono_step, IH, H.
Qed.
Lemma released_mono tr tr' m p : released (clk tr) m p = true -> released (clk (tr ++ tr')) m p = true.
Proof.
  induction tr' as [|e tr' IH] using rev_ind; intros H; [rewrite app_nil_r; assumption|].
  rewrite app_assoc, clk_snoc. apply released_mono_step, IH, H.
Qed.

Lemma firstn_le_app {A} (l : list A) a b : a <= b -> exists l', firstn b l = firstn a l ++ l'.
Proof.
  intros H. exists (firstn (b - a) (skipn a l)).
  rewrite <- (firstn_skipn a (firstn b l)), firstn_firstn, Nat.min_l by assumption. f_equal. apply skipn_firstn_comm.
Qed.
Lemma firstn_S_nth {A} (l : list A) q x : nth_error l q = Some x -> firstn (S q) l = firstn q l ++ [x].
Proof. revert q; induction l as [|y l IH]; intros [|q] H; try discriminate; cbn in *; [congruence|]. f_equal. apply IH, H. Qed.

Definition post tr (q p : nat) : Prop :=
  exists t w, nth_error tr q = Some (t, w) /\ known (clk (firstn (S q) tr)) t p = true.

Lemma post_self tr q t w : nth_error tr q = Some (t, w) -> post tr q q.
Proof.
  intros H. exists t, w. split; [assumption|]. rewrite (firstn_S_nth _ _ _ H), clk_snoc. cbn. rewrite Nat.eqb_refl, clk_len.
  rewrite firstn_length_le by (apply nth_lt in H; lia). rewrite Nat.eqb_refl. destruct (known _ _ _); reflexivity.
Qed.

Lemma post_hb tr q r : hb tr q r -> forall p, post tr q p -> post tr r p.
Proof.
  assert (KM : forall a b t p, a <= b -> known (clk (firstn a tr)) t p = true -> known (clk (firstn b tr)) t p = true).
  { intros a b t p Hab H. destruct (firstn_le_app tr a b Hab) as (l' & ->). apply known_mono, H. }
  assert (RM : forall a b m p, a <= b -> released (clk (firstn a tr)) m p = true -> released (clk (firstn b tr)) m p = true).
  { intros a b t p Hab H. destruct (firstn_le_app tr a b Hab) as (l' & ->). apply released_mono, H. }
  assert (ST : forall r t w, nth_error tr r = Some (t, w) -> clk (firstn (S r) tr) = ck_step (clk (firstn r tr)) (t, w)).
  { intros r0 t w H. rewrite (firstn_S_nth _ _ _ H), clk_snoc. reflexivity. }
  induction 1 as [i j t a b Hij Hi Hj|i j t u b Hij Hi Hj|i j t u a Hij Hi Hj|i j t u v Hij Hi Hj|i j t u m Hij Hi Hj|i j k H1 IH1 H2 IH2];
    intros p HP; [..|apply IH2, IH1, HP]; destruct HP as (t0 & w0 & E0 & HK); rewrite Hi in E0; injection E0 as <- <-.
  - exists t, b. split; [assumption|]. rewrite (ST _ _ _ Hj). apply known_mono_step. eapply KM; [|exact HK]; lia.
  - exists u, b. split; [assumption|]. rewrite (ST _ _ _ Hj). apply known_mono_step.
    eapply (KM (S i)); [lia|]. rewrite (ST _ _ _ Hi) in HK |- *. cbn in HK |- *. rewrite Nat.eqb_refl in HK.
    destruct (u =? t) eqn:E; [exact HK|]. rewrite Nat.eqb_refl. cbn [andb].
    apply orb_true_iff. right. exact HK.
  - exists t, (Join u). split; [assumption|]. rewrite (ST _ _ _ Hj). cbn. rewrite Nat.eqb_refl.
    apply orb_true_iff. right. eapply KM; [|exact HK]; lia.
  - exists u, (Join v). split; [assumption|]. rewrite (ST _ _ _ Hj). cbn. rewrite Nat.eqb_refl.
    apply orb_true_iff. right. eapply (KM (S i)); [lia|]. rewrite (ST _ _ _ Hi) in HK |- *. cbn in HK |- *. rewrite Nat.eqb_refl in HK.
    destruct (v =? t) eqn:E; [exact HK|]. rewrite Nat.eqb_refl. cbn [andb]. apply orb_true_iff. right. exact HK.
  - exists u, (Lock m). split; [assumption|]. rewrite (ST _ _ _ Hj). cbn. rewrite Nat.eqb_refl.
    apply orb_true_iff. right. eapply (RM (S i)); [lia|]. rewrite (ST _ _ _ Hi) in HK |- *. cbn in HK |- *. rewrite !Nat.eqb_refl in *.
    cbn [andb]. apply orb_true_iff. right. exact HK.
Qed.

Lemma hb_lt tr i j : hb tr i j -> i < j.
Proof. induction 1; lia. Qed.
Lemma hb_defined tr i j : hb tr i j -> exists x, nth_error tr i = Some x.
Proof. induction 1; eauto. Qed.

Lemma hb_post tr p q : hb tr p q -> post tr q p.
Proof. intros H. eapply post_hb; [exact H|]. destruct (hb_defined _ _ _ H) as ([t w] & E). eapply post_self; exact E. Qed.

Lemma post_upto tr p q : post tr q p -> upto tr p q.
Proof.
  intros (t & w & E & HK). 
  assert (upto (firstn (S q) tr) p q) as H.
  { rewrite (firstn_S_nth _ _ _ E), clk_snoc in HK. cbn in HK. rewrite Nat.eqb_refl in HK.
    rewrite (firstn_S_nth _ _ _ E). assert (length (firstn q tr) = q) as HL by (apply firstn_length_le; apply nth_lt in E; lia).
    apply orb_true_iff in HK. destruct HK as [HK|HK]; [apply orb_true_iff in HK; destruct HK as [HK|HK]|].
    - right. pose proof (known_hb _ _ w _ HK) as G. rewrite HL in G. exact G.
    - left. rewrite clk_len, HL in HK. apply Nat.eqb_eq, HK.
    - right. destruct w; try discriminate.
      + destruct (proj1 (clk_sound _) _ _ HK) as (r & u & w' & H1 & H2 & H3).
        eapply upto_hb; [apply upto_mono; exact H1|]. pose proof (nth_lt _ _ _ H2).
        assert (hb (firstn q tr ++ [(t, Join t0)]) r (length (firstn q tr))) as G
         by (destruct H3 as [-> | ->]; [eapply hb_wait|eapply hb_start_wait]; eauto using nth_snoc_new, nth_snoc_old).
        rewrite HL in G. exact G.
      + destruct (proj2 (clk_sound _) _ _ HK) as (r & u & H1 & H2).
        eapply upto_hb; [apply upto_mono; exact H1|]. pose proof (nth_lt _ _ _ H2).
        assert (hb (firstn q tr ++ [(t, Lock m)]) r (length (firstn q tr))) as G
         by (eapply hb_mutex; eauto using nth_snoc_new, nth_snoc_old).
        rewrite HL in G. exact G. }
  destruct (firstn_le_app tr (S q) (S q + length tr)) as (l' & E'); [lia|].
  rewrite firstn_all2 in E' by lia. rewrite E'. apply upto_mono, H.
Qed.

Lemma hb_iff tr p q : hb tr p q <-> p <> q /\ post tr q p.
Proof.
  split.
  - intros H. split; [apply hb_lt in H; lia|apply hb_post, H].
  - intros [Hn H]. destruct (post_upto _ _ _ H) as [E|E]; [contradiction|exact E].
Qed.

(** races of a longer trace: they are races of the prefix, or involve the last event *)
Lemma race_on_snoc tr e l i j : race_on (tr ++ [e]) l i j ->
  race_on tr l i j \/
  (j = length tr /\ i < length tr /\ exists t a b, nth_error tr i = Some (t, Acc a l) /\ e = (fst e, Acc b l) /\
     t <> fst e /\ conflicting a b /\ known (clk tr) (fst e) i = false).
Proof.
  intros (Hij & t & u & a & b & Hi & Hj & Htu & Hc & Hn).
  assert (j <= length tr) as HJ by (apply nth_lt in Hj; rewrite app_length in Hj; cbn in Hj; lia).
  assert (i < length tr) as HI by lia.
  rewrite nth_error_app1 in Hi by assumption.
  destruct (Nat.eq_dec j (length tr)) as [->|Hj'].
  - right. split; [reflexivity|]. split; [assumption|]. rewrite nth_snoc_new in Hj. injection Hj as ->. exists t, a, b. cbn.
    repeat split; try assumption. destruct (known (clk tr) u i) eqn:E; [|reflexivity]. exfalso. apply Hn. apply known_hb, E.
  - left. split; [assumption|]. rewrite nth_error_app1 in Hj by lia. exists t, u, a, b. repeat split; try assumption.
    intros H. apply Hn. apply hb_mono, H.
Qed.

(** the converse, for showing that there is a race *)
Lemma race_on_intro tr l i j t u a b : i < j -> nth_error tr i = Some (t, Acc a l) -> nth_error tr j = Some (u, Acc b l) ->
  t <> u -> conflicting a b -> known (clk (firstn (S j) tr)) u i = false -> race_on tr l i j.
Proof.
  intros Hij Hi Hj Htu Hc HK. split; [assumption|]. exists t, u, a, b. repeat split; try assumption.
  intros H. destruct (hb_post _ _ _ H) as (u' & w & E & HK'). rewrite Hj in E. injection E as <- <-. congruence.
Qed.
End Proofs.
