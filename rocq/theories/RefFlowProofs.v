(** Proofs about reference counting in the checkers (RefFlow.v). *)
From Coq Require Import NArith Bool List Arith Lia Permutation.
From Verif Require Import RefPackage RefFlow RefSpec.
Import ListNotations.

Section Proofs.
Variable o : oracle.

(** [H]: references held; [K]: diagrams that merely have to stay readable *)
Definition Inv (H K : list node) (w : world) : Prop :=
  (forall n, terminal n = false -> cnt w n = N.of_nat (count_occ N.eq_dec H n)) /\
  (forall n, terminal n = false -> In n H -> live w n = true) /\
  (forall n, In n K -> alive w n = true).
Definition triple {A} (hg : Prop) (P : world -> Prop) (m : M A) (Q : A -> world -> Prop) : Prop :=
  forall w, P w -> match m w with Ok a w' => Q a w' | Fault _ => False | Hang => hg end.

Lemma tr_bind A B hg P (m : M A) Q (k : A -> M B) R :
  triple hg P m Q -> (forall a, triple hg (Q a) (k a) R) -> triple hg P (bind m k) R.
Proof.
  intros H1 H2 w Hw. unfold bind. specialize (H1 w Hw). destruct (m w) as [a w'| |]; auto. apply H2; auto.
Qed.
Lemma tr_ret A hg (P : world -> Prop) (a : A) (Q : A -> world -> Prop) : (forall w, P w -> Q a w) -> triple hg P (ret a) Q.
Proof. intros H w Hw. cbn. auto. Qed.
Lemma tr_pre A hg (P P' : world -> Prop) (m : M A) Q : triple hg P' m Q -> (forall w, P w -> P' w) -> triple hg P m Q.
Proof. intros H1 H2 w Hw. apply H1; auto. Qed.
Lemma tr_post A hg (P : world -> Prop) (m : M A) (Q Q' : A -> world -> Prop) :
  triple hg P m Q -> (forall a w, Q a w -> Q' a w) -> triple hg P m Q'.
Proof. intros H1 H2 w Hw. specialize (H1 w Hw). destruct (m w); auto. Qed.
Lemma tr_weak A (hg hg' : Prop) (P : world -> Prop) (m : M A) Q : (hg -> hg') -> triple hg P m Q -> triple hg' P m Q.
Proof. intros H1 H2 w Hw. specialize (H2 w Hw). destruct (m w); auto. Qed.

Lemma alive_live w n : terminal n = false -> alive w n = live w n.
Proof. unfold alive. intros ->. reflexivity. Qed.
Lemma Inv_alive H K w n : Inv H K w -> In n H \/ In n K -> alive w n = true.
Proof.
  intros (_ & h2 & h3) [Hn|Hn]; [|auto]. unfold alive. destruct (terminal n) eqn:E; [reflexivity|]. now apply h2.
Qed.
Lemma Inv_perm H H' K w : Permutation H H' -> Inv H K w -> Inv H' K w.
Proof.
  intros p (h1 & h2 & h3). repeat split; auto.
  - intros n Hn. rewrite h1 by auto. f_equal. now apply Permutation_count_occ.
  - intros n Hn Hi. apply h2; auto. eapply Permutation_in; [apply Permutation_sym|]; eauto.
Qed.
Lemma Inv_keep H K K' w : (forall n, In n K' -> In n K \/ In n H) -> Inv H K w -> Inv H K' w.
Proof.
  intros s J. split; [apply J|split; [apply J|]]. intros n Hn. apply (Inv_alive H K w n J). destruct (s n Hn); auto.
Qed.

Section Steps.
Variable hg : Prop.
Lemma set_same A (g : node -> A) n a : set g n a n = a.
Proof. unfold set. now rewrite N.eqb_refl. Qed.
Lemma set_mono (g : node -> bool) n m : g m = true -> set g n true m = true.
Proof. unfold set. destruct (N.eqb m n); auto. Qed.
Lemma st_fresh H K : triple hg (Inv H K) (fresh o) (fun n w => Inv H (n :: K) w).
Proof.
  intros w (h1 & h2 & h3). unfold fresh. cbn. repeat split; cbn; auto.
  - intros n Hn Hi. apply set_mono; auto.
  - intros n [<-|Hn]; unfold alive; cbn; [rewrite set_same; apply orb_true_r|].
    specialize (h3 _ Hn). unfold alive in h3. apply orb_true_iff in h3 as [->|h3]; [reflexivity|].
    rewrite set_mono by auto. apply orb_true_r.
Qed.
Lemma st_use H K n : In n H \/ In n K -> triple hg (Inv H K) (use n) (fun _ w => Inv H K w).
Proof. intros Hn w I. unfold use. rewrite (Inv_alive _ _ _ _ I Hn). exact I. Qed.
Lemma st_multiply H K a b : In a H \/ In a K -> In b H \/ In b K ->
  triple hg (Inv H K) (multiply o a b) (fun n w => Inv H (n :: K) w).
Proof.
  intros Ha Hb. unfold multiply. eapply tr_bind; [apply st_use; auto|]. intros ?.
  eapply tr_bind; [apply st_use; auto|]. intros ?. apply st_fresh.
Qed.
Lemma st_incRef H K n : In n H \/ In n K -> triple hg (Inv H K) (incRef n) (fun _ w => Inv (n :: H) K w).
Proof.
  intros Hn w I. unfold incRef. destruct (terminal n) eqn:E.
  - destruct I as (h1 & h2 & h3). repeat split; auto.
    + intros m Hm. rewrite h1 by auto. cbn. destruct (N.eq_dec n m) as [->|]; [congruence|reflexivity].
    + intros m Hm [<-|Hi]; [congruence|auto].
  - rewrite <- (alive_live w n E), (Inv_alive _ _ _ _ I Hn). pose proof (Inv_alive _ _ _ _ I Hn) as La.
    rewrite alive_live in La by auto.
    destruct I as (h1 & h2 & h3). repeat split; cbn; auto.
    + intros m Hm. unfold set. destruct (N.eqb_spec m n) as [->|Hne].
      * destruct (N.eq_dec n n); [|congruence]. rewrite h1 by auto. lia.
      * destruct (N.eq_dec n m); [congruence|]. now apply h1.
    + intros m Hm [<-|Hi]; auto.
Qed.
Lemma st_decRef H K n : triple hg (Inv (n :: H) K) (decRef n) (fun _ w => Inv H (n :: K) w).
Proof.
  intros w I. assert (La : alive w n = true) by (eapply Inv_alive; eauto; left; now left).
  unfold decRef. destruct (terminal n) eqn:E.
  - destruct I as (h1 & h2 & h3). repeat split; auto.
    + intros m Hm. rewrite h1 by auto. cbn. destruct (N.eq_dec n m) as [->|]; [congruence|reflexivity].
    + intros m Hm Hi. apply h2; auto. now right.
    + intros m [<-|Hm]; auto.
  - pose proof La as La'. rewrite alive_live in La' by auto. rewrite La'. cbn.
    destruct I as (h1 & h2 & h3). destruct (N.eqb_spec (cnt w n) 0) as [Hz|Hz].
    + rewrite h1 in Hz by auto. cbn in Hz. destruct (N.eq_dec n n); [|congruence]. lia.
    + repeat split; cbn; auto.
      * intros m Hm. unfold set. destruct (N.eqb_spec m n) as [->|Hne].
        -- rewrite h1 by auto. cbn. destruct (N.eq_dec n n); [|congruence]. lia.
        -- rewrite h1 by auto. cbn. destruct (N.eq_dec n m); [congruence|reflexivity].
      * intros m Hm Hi. apply h2; auto. now right.
      * intros m [<-|Hm]; auto. now apply h3.
Qed.
(** the collector spares what is referenced, and everything when it never runs *)
Lemma st_gc H K : K = [] \/ (forall k, o_gc o k = false) -> triple hg (Inv H K) (garbageCollect o) (fun _ w => Inv H K w).
Proof.
  intros k w (h1 & h2 & h3). unfold garbageCollect. repeat split; cbn; auto.
  - intros n Hn Hi. destruct (o_gc o (clock w)); auto. rewrite (h2 _ Hn Hi). cbn. apply N.ltb_lt.
    rewrite h1 by auto. assert (count_occ N.eq_dec H n > 0) by (now apply count_occ_In). lia.
  - destruct k as [->|k]; [intros n []|]. rewrite k. exact h3.
Qed.
Lemma st_flag H K : triple hg (Inv H K) (flag o) (fun _ w => Inv H K w).
Proof. intros w I. exact I. Qed.
Lemma st_num H K : triple hg (Inv H K) (num o) (fun _ w => Inv H K w).
Proof. intros w I. exact I. Qed.
Lemma st_isDone H K : triple hg (Inv H K) (isDone o) (fun b w => Inv H K w /\ exists k, b = o_done o k).
Proof. intros w I. cbn. split; [exact I|eauto]. Qed.
Lemma st_isDone' H K : triple hg (Inv H K) (isDone o) (fun _ w => Inv H K w).
Proof. intros w I. exact I. Qed.

(** what is to be kept readable while the collector may run *)
Variable K : list node.
Hypothesis Kok : K = [] \/ forall k, o_gc o k = false.
Lemma drop H K' w : (forall n, In n K -> In n K') -> Inv H K' w -> Inv H K w.
Proof. intros s. apply Inv_keep. intros n Hn. left. auto. Qed.
Ltac sub := intros ? ?; cbn in *; tauto.

Lemma st_replace H K' e e' : In e' K' -> (forall n, In n K -> In n K') ->
  triple hg (Inv (e :: H) K') (replace o e e') (fun _ w => Inv (e' :: H) K w).
Proof.
  intros He s. unfold replace. eapply tr_bind; [apply st_incRef; auto|]. intros ?.
  eapply tr_bind; [eapply tr_pre; [apply (st_decRef (e' :: H) K')|]|].
  - intros w. apply Inv_perm. apply perm_swap.
  - intros ?. eapply tr_pre; [apply st_gc; exact Kok|]. intros w. apply drop. intros n Hn. right. auto.
Qed.
Lemma st_swap_times H k : forall e, triple hg (Inv (e :: H) K) (swap_times o k e) (fun e' w => Inv (e' :: H) K w).
Proof.
  induction k as [|k IH]; intros e; cbn [swap_times].
  - apply tr_ret. auto.
  - eapply tr_bind; [apply st_fresh|]. intros g. eapply tr_bind; [apply st_multiply; cbn; auto|]. intros e'.
    eapply tr_bind; [apply st_replace; [cbn; auto|sub]|]. intros ?. apply IH.
Qed.
Lemma st_changePermutation H e : triple hg (Inv (e :: H) K) (changePermutation o e) (fun e' w => Inv (e' :: H) K w).
Proof. eapply tr_bind; [apply st_num|]. intros k. apply st_swap_times. Qed.
Lemma st_reduce H e : triple hg (Inv (e :: H) K) (reduce o e) (fun e' w => Inv (e' :: H) K w).
Proof.
  eapply tr_bind; [apply st_use; cbn; auto|]. intros ?. eapply tr_bind; [apply st_flag|]. intros [].
  - apply tr_ret. auto.
  - eapply tr_bind; [apply st_fresh|]. intros r. eapply tr_bind; [apply st_incRef; cbn; auto|]. intros ?.
    eapply tr_bind; [eapply tr_pre; [apply (st_decRef (r :: H) (r :: K))|intros w; apply Inv_perm, perm_swap]|].
    intros ?. apply tr_ret. intros w. apply drop. sub.
Qed.
Lemma st_applyGate H left r e : finished r = false ->
  triple hg (Inv (e :: H) K) (applyGate o left r e) (fun p w => fst p = tl r /\ Inv (snd p :: H) K w).
Proof.
  destruct r as [|b r]; [discriminate|]. intros ?. cbn [applyGate].
  eapply tr_bind; [apply st_fresh|]. intros g.
  apply tr_bind with (Q := fun n w => Inv (e :: H) (n :: g :: K) w).
  { destruct left; apply st_multiply; cbn; auto. }
  intros e'. eapply tr_bind; [apply st_incRef; cbn; auto|]. intros ?.
  eapply tr_bind; [eapply tr_pre; [apply (st_decRef (e' :: H) (e' :: g :: K))|intros w; apply Inv_perm, perm_swap]|].
  intros ?. eapply tr_bind; [eapply tr_pre; [apply st_gc; exact Kok|]|].
  - intros w. apply drop. sub.
  - intros ?. apply tr_ret. cbn. auto.
Qed.
Lemma st_applySwaps H left : forall r e,
  triple hg (Inv (e :: H) K) (applySwaps o left r e) (fun p w => length (fst p) <= length r /\ Inv (snd p :: H) K w).
Proof.
  induction r as [|b r IH]; intros e; [apply tr_ret; cbn; auto|]. cbn [applySwaps]. destruct b.
  - eapply tr_bind; [apply st_applyGate; reflexivity|]. intros p.
    eapply tr_post; [eapply tr_pre; [apply (IH (snd p))|]|].
    + intros w [_ I]. exact I.
    + cbn. intros q w [h I]. split; [lia|exact I].
  - apply tr_ret; cbn; auto.
Qed.
Lemma st_advance H left : forall k r e,
  triple hg (Inv (e :: H) K) (advance o left k r e) (fun p w => length (fst p) <= length r /\ (0 < k -> 0 < length r -> length (fst p) < length r) /\ Inv (snd p :: H) K w).
Proof.
  induction k as [|k IH]; intros r e; cbn [advance].
  { apply tr_ret. cbn. intros w I. split; [lia|split; [lia|exact I]]. }
  destruct (finished r) eqn:E.
  { apply tr_ret. destruct r; [|discriminate E]. cbn. intros w I. split; [lia|split; [lia|exact I]]. }
  eapply tr_bind; [apply st_applyGate; exact E|]. intros p.
  apply tr_bind with (Q := fun q w => length (fst q) < length r /\ Inv (snd q :: H) K w).
  { intros w [hp I]. generalize (st_applySwaps H left (fst p) (snd p) w I).
    destruct (applySwaps o left (fst p) (snd p) w) as [q w'| |]; auto. intros [h J]. split; [|exact J].
    rewrite hp in h. destruct r; [discriminate E|]. eapply Nat.le_lt_trans; [exact h|]. cbn. apply Nat.lt_succ_diag_r. }
  intros q w [h I]. generalize (IH (fst q) (snd q) w I). destruct (advance o left k (fst q) (snd q) w) as [x w'| |]; auto.
  intros (h1 & _ & J). split; [lia|split; [lia|exact J]].
Qed.
Lemma st_advance' H left k r e : triple hg (Inv (e :: H) K) (advance o left k r e) (fun p w => Inv (snd p :: H) K w).
Proof. eapply tr_post; [apply st_advance|]. cbn. intros p w (_ & _ & I). exact I. Qed.
Lemma st_applySwaps' H left r e : triple hg (Inv (e :: H) K) (applySwaps o left r e) (fun p w => Inv (snd p :: H) K w).
Proof. eapply tr_post; [apply st_applySwaps|]. cbn. intros p w (_ & I). exact I. Qed.
Lemma st_finish_n H left : forall k r e, length r <= k ->
  triple hg (Inv (e :: H) K) (finish_n o left k r e) (fun e' w => Inv (e' :: H) K w).
Proof.
  induction k as [|k IH]; intros r e hk; cbn [finish_n].
  - destruct r; [|cbn in hk; lia]. cbn. apply tr_ret. auto.
  - destruct (finished r) eqn:E; [apply tr_ret; auto|].
    intros w I. unfold bind. generalize (st_advance H left 1 r e w I).
    destruct (advance o left 1 r e w) as [q w'| |]; auto. intros (_ & h & J). apply IH; auto.
    assert (0 < length r) by (destruct r; [discriminate E|cbn; lia]). lia.
Qed.
Lemma st_finish H left r e : triple hg (Inv (e :: H) K) (finish o left r e) (fun e' w => Inv (e' :: H) K w).
Proof. apply st_finish_n. auto. Qed.
Lemma st_unless A (g : A -> M A) P s : triple hg (fun w => Inv (fst (P s)) (snd (P s)) w) (g s) (fun s' w => Inv (fst (P s')) (snd (P s')) w) ->
  triple hg (fun w => Inv (fst (P s)) (snd (P s)) w) (unless_done o g s) (fun s' w => Inv (fst (P s')) (snd (P s')) w).
Proof. intros h. eapply tr_bind; [apply st_isDone'|]. intros []; [apply tr_ret; auto|exact h]. Qed.

(** two diagrams *)
Definition TI (H : list node) (s : two) : world -> Prop := Inv (e1 s :: e2 s :: H) K.
Lemma TI_swap H s w : TI H s w <-> Inv (e2 s :: e1 s :: H) K w.
Proof. split; apply Inv_perm, perm_swap. Qed.
Lemma st_on1 H g s : (forall H r e, triple hg (Inv (e :: H) K) (g r e) (fun p w => Inv (snd p :: H) K w)) ->
  triple hg (TI H s) (on1 g s) (fun s' w => TI H s' w).
Proof. intros h. eapply tr_bind; [apply h|]. intros p. apply tr_ret. auto. Qed.
Lemma st_on2 H g s : (forall H r e, triple hg (Inv (e :: H) K) (g r e) (fun p w => Inv (snd p :: H) K w)) ->
  triple hg (TI H s) (on2 g s) (fun s' w => TI H s' w).
Proof.
  intros h. eapply tr_bind; [eapply tr_pre; [apply h|intros w; apply TI_swap]|]. intros p. apply tr_ret. intros w I. apply TI_swap. exact I.
Qed.
Lemma st_unless2 H (g : two -> M two) s : triple hg (TI H s) (g s) (fun s' w => TI H s' w) ->
  triple hg (TI H s) (unless_done o g s) (fun s' w => TI H s' w).
Proof. intros h. eapply tr_bind; [apply st_isDone'|]. intros []; [apply tr_ret; auto|exact h]. Qed.
Lemma st_execute H (hang_ok : hg) : forall fuel s, triple hg (TI H s) (execute o fuel s) (fun s' w => TI H s' w).
Proof.
  induction fuel as [|k IH]; intros s; cbn [execute]; [intros w _; exact hang_ok|].
  destruct (negb (both_unfinished s)); [apply tr_ret; auto|].
  eapply tr_bind; [apply st_isDone'|]. intros []; [apply tr_ret; auto|].
  eapply tr_bind; [apply st_on1; intros; apply st_applySwaps'|]. intros s1.
  eapply tr_bind; [apply st_on2; intros; apply st_applySwaps'|]. intros s2.
  destruct (negb (both_unfinished s2)); [apply IH|].
  eapply tr_bind; [apply st_isDone'|]. intros []; [apply IH|].
  eapply tr_bind; [apply st_num|]. intros n1. eapply tr_bind; [apply st_num|]. intros n2.
  eapply tr_bind; [apply st_unless2, st_on1; intros; apply st_advance'|]. intros s3.
  eapply tr_bind; [apply st_unless2, st_on2; intros; apply st_advance'|]. intros s4. apply IH.
Qed.
Lemma st_finish_both H s : triple hg (TI H s) (finish_both o s) (fun s' w => TI H s' w).
Proof.
  eapply tr_bind; [apply st_unless2; eapply tr_bind; [apply st_finish|]; intros e; apply tr_ret; auto|].
  intros s'. apply st_unless2. eapply tr_bind; [eapply tr_pre; [apply st_finish|intros w; apply TI_swap]|].
  intros e. apply tr_ret. intros w I. apply TI_swap. exact I.
Qed.
Lemma st_postTask H partial e : triple hg (Inv (e :: H) K) (postprocessTask o partial e) (fun e' w => Inv (e' :: H) K w).
Proof.
  eapply tr_bind; [apply st_changePermutation|]. intros e'. eapply tr_bind; [apply st_isDone'|]. intros []; [apply tr_ret; auto|].
  eapply tr_bind; [apply st_reduce|]. intros e''. eapply tr_bind; [apply st_isDone'|]. intros []; [apply tr_ret; auto|].
  destruct partial; [apply st_reduce|apply tr_ret; auto].
Qed.
Lemma st_postprocess H partial s : triple hg (TI H s) (postprocess o partial s) (fun s' w => TI H s' w).
Proof.
  eapply tr_bind; [apply st_unless2; eapply tr_bind; [apply st_postTask|]; intros e; apply tr_ret; auto|].
  intros s'. apply st_unless2. eapply tr_bind; [eapply tr_pre; [apply st_postTask|intros w; apply TI_swap]|].
  intros e. apply tr_ret. intros w I. apply TI_swap. exact I.
Qed.
Lemma st_equals H s : triple hg (TI H s) (equals o (e1 s) (e2 s)) (fun _ w => TI H s w).
Proof.
  eapply tr_bind; [apply st_use; cbn; auto|]. intros ?. eapply tr_bind; [apply st_use; cbn; auto|]. intros ?.
  eapply tr_bind; [apply st_flag|]. intros []; [|apply tr_ret; auto].
  eapply tr_bind; [apply st_use; cbn; auto|]. intros ?. eapply tr_bind; [apply st_fresh|]. intros g.
  eapply tr_bind; [apply st_multiply; cbn; auto|]. intros h.
  eapply tr_post; [apply st_use; cbn; auto|]. intros ? w. apply drop. sub.
Qed.
Lemma st_run_two H (hang_ok : hg) fuel partial s :
  triple hg (TI H s) (run_two o fuel partial s)
    (fun p w => TI H (snd p) w /\ ((forall k, o_done o k = false) -> fst p = Compared)).
Proof.
  eapply tr_bind; [apply st_execute; exact hang_ok|]. intros s1. eapply tr_bind; [apply st_finish_both|]. intros s2.
  eapply tr_bind; [apply st_postprocess|]. intros s3. eapply tr_bind; [apply st_isDone|]. intros [].
  - apply tr_ret. intros w [I [k hk]]. split; [exact I|]. intros nd. rewrite nd in hk. discriminate hk.
  - eapply tr_bind; [eapply tr_pre; [apply st_equals|]|].
    + intros w [I _]. exact I.
    + intros ?. apply tr_ret. intros w I. split; [exact I|reflexivity].
Qed.
Lemma st_con_task H : triple hg (Inv H K) (con_task o) (fun e w => Inv (e :: H) K w).
Proof.
  eapply tr_bind; [apply st_fresh|]. intros e. eapply tr_bind; [apply st_incRef; cbn; auto|]. intros ?.
  eapply tr_pre; [apply st_reduce|]. intros w. apply drop. sub.
Qed.
Lemma st_con_run H (hang_ok : hg) fuel partial c1 c2 :
  triple hg (Inv H K) (con_run o fuel partial c1 c2) (fun l w => Inv (l ++ H) K w).
Proof.
  eapply tr_bind; [apply st_con_task|]. intros a. eapply tr_bind; [apply st_con_task|]. intros b.
  eapply tr_bind; [eapply tr_pre; [apply (st_run_two H hang_ok fuel partial (Two c1 a c2 b))|intros w; apply Inv_perm, perm_swap]|].
  intros p. apply tr_ret. intros w [I _]. exact I.
Qed.

(** the alternating checker *)
Definition AI (H : list node) (s : one) : world -> Prop := Inv (holds s ++ H) K.
Lemma st_alt1 H g s : (forall H r e, triple hg (Inv (e :: H) K) (g r e) (fun p w => Inv (snd p :: H) K w)) ->
  triple hg (AI H s) (alt1 g s) (fun s' w => AI H s' w).
Proof. intros h. eapply tr_bind; [apply h|]. intros p. apply tr_ret. auto. Qed.
Lemma st_alt2 H g s : (forall H r e, triple hg (Inv (e :: H) K) (g r e) (fun p w => Inv (snd p :: H) K w)) ->
  triple hg (AI H s) (alt2 g s) (fun s' w => AI H s' w).
Proof. intros h. eapply tr_bind; [apply h|]. intros p. apply tr_ret. auto. Qed.
Lemma st_unlessA H (g : one -> M one) s : triple hg (AI H s) (g s) (fun s' w => AI H s' w) ->
  triple hg (AI H s) (unless_done o g s) (fun s' w => AI H s' w).
Proof. intros h. eapply tr_bind; [apply st_isDone'|]. intros []; [apply tr_ret; auto|exact h]. Qed.
Lemma st_cache H k : triple hg (Inv (opt k ++ H) K) (cache o k) (fun g w => Inv (g :: H) K w).
Proof.
  destruct k as [g|]; cbn [cache opt List.app]; [apply tr_ret; auto|].
  eapply tr_bind; [apply st_fresh|]. intros g. eapply tr_bind; [apply st_incRef; cbn; auto|]. intros ?.
  apply tr_ret. intros w. apply drop. sub.
Qed.
Lemma st_lookahead H s : both_left s = true -> triple hg (AI H s) (lookahead o s) (fun s' w => AI H s' w).
Proof.
  intros bl. unfold lookahead.
  eapply tr_bind; [eapply tr_pre; [apply (st_cache (opt (k2 s) ++ f s :: H))|]|].
  { intros w. apply Inv_perm. unfold holds. cbn [List.app]. rewrite <- app_assoc.
    rewrite <- !Permutation_middle. constructor. reflexivity. }
  intros g1. eapply tr_bind; [eapply tr_pre; [apply (st_cache (g1 :: f s :: H))|]|].
  { intros w. apply Inv_perm. apply Permutation_middle. }
  intros g2. eapply tr_bind; [apply st_multiply; cbn; auto|]. intros d1.
  eapply tr_bind; [apply st_use; cbn; auto|]. intros ?.
  eapply tr_bind; [apply st_multiply; cbn; auto|]. intros d2.
  eapply tr_bind; [apply st_use; cbn; auto|]. intros ?.
  eapply tr_bind; [apply st_flag|]. apply andb_true_iff in bl as [b1 b2]. intros [].
  - destruct (a1 s) as [|x r]; [discriminate b1|].
    eapply tr_bind; [eapply tr_pre; [apply (st_decRef (g2 :: f s :: H))|intros w; apply Inv_perm, perm_swap]|]. intros ?.
    eapply tr_bind; [apply st_incRef; cbn; auto|]. intros ?.
    eapply tr_bind; [eapply tr_pre; [apply (st_decRef (d1 :: g2 :: H))|]|].
    { intros w. apply Inv_perm. etransitivity; [apply perm_skip, perm_swap|apply perm_swap]. }
    intros ?. eapply tr_bind; [eapply tr_pre; [apply st_gc; exact Kok|intros w; apply drop; sub]|].
    intros ?. apply tr_ret. intros w I. exact I.
  - destruct (a2 s) as [|x r]; [discriminate b2|].
    eapply tr_bind; [apply st_decRef|]. intros ?.
    eapply tr_bind; [apply st_incRef; cbn; auto|]. intros ?.
    eapply tr_bind; [eapply tr_pre; [apply (st_decRef (d2 :: g1 :: H))|]|].
    { intros w. apply Inv_perm. etransitivity; [apply perm_skip, perm_swap|apply perm_swap]. }
    intros ?. eapply tr_bind; [eapply tr_pre; [apply st_gc; exact Kok|intros w; apply drop; sub]|].
    intros ?. apply tr_ret. intros w I. exact I.
Qed.
Lemma st_alt_execute H (hang_ok : hg) look : forall fuel s, triple hg (AI H s) (alt_execute o look fuel s) (fun s' w => AI H s' w).
Proof.
  induction fuel as [|k IH]; intros s; cbn [alt_execute]; [intros w _; exact hang_ok|].
  destruct (negb (both_left s)); [apply tr_ret; auto|].
  eapply tr_bind; [apply st_isDone'|]. intros []; [apply tr_ret; auto|].
  eapply tr_bind; [apply st_alt1; intros; apply st_applySwaps'|]. intros s1.
  eapply tr_bind; [apply st_alt2; intros; apply st_applySwaps'|]. intros s2.
  destruct (both_left s2) eqn:B; cbn [negb]; [|apply IH].
  eapply tr_bind; [apply st_isDone'|]. intros []; [apply IH|].
  eapply tr_bind; [apply st_use; cbn; auto|]. intros ?.
  eapply tr_bind; [apply st_flag|]. intros c. destruct (negb look && c).
  { eapply tr_pre; [apply IH|]. intros w I. exact I. }
  destruct look.
  - eapply tr_bind; [apply st_lookahead; exact B|]. intros s3. apply IH.
  - eapply tr_bind; [apply st_num|]. intros n1. eapply tr_bind; [apply st_num|]. intros n2.
    eapply tr_bind; [apply st_unlessA, st_alt1; intros; apply st_advance'|]. intros s3.
    eapply tr_bind; [apply st_unlessA, st_alt2; intros; apply st_advance'|]. intros s4. apply IH.
Qed.
Lemma st_alt_perm H s : triple hg (AI H s) (alt_perm o s) (fun s' w => AI H s' w).
Proof. eapply tr_bind; [apply st_changePermutation|]. intros e. apply tr_ret. auto. Qed.
Lemma st_alt_run H (hang_ok : hg) look refused fuel c1 c2 :
  triple hg (Inv H K) (alt_run o look refused fuel c1 c2) (fun l w => Inv (l ++ H) K w).
Proof.
  eapply tr_bind; [apply st_fresh|]. intros e. eapply tr_bind; [apply st_incRef; cbn; auto|]. intros ?.
  destruct refused; [apply tr_ret; intros w; apply drop; sub|].
  eapply tr_bind; [eapply tr_pre; [apply st_reduce|intros w; apply drop; sub]|]. intros e'.
  eapply tr_bind; [apply (st_alt_execute H hang_ok look fuel (One c1 c2 e' None None))|]. intros s.
  apply tr_bind with (Q := AI H).
  { eapply tr_bind; [apply st_finish|]. intros e2.
    eapply tr_pre; [apply (st_unlessA H _ (One [] (a2 s) e2 (k1 s) (k2 s)))|intros w I; exact I].
    eapply tr_bind; [apply st_finish|]. intros e3. apply tr_ret. auto. }
  intros s1. eapply tr_bind; [apply st_alt_perm|]. intros s2. eapply tr_bind; [apply st_unlessA, st_alt_perm|]. intros s3.
  eapply tr_bind; [apply st_isDone'|]. intros []; [apply tr_ret; auto|].
  eapply tr_bind; [apply st_use; cbn; auto|]. intros ?. apply tr_ret. auto.
Qed.

(** the simulation checker *)
Lemma st_sim_run H (hang_ok : hg) fuel partial c1 c2 i K' : In i K' -> (forall n, In n K -> In n K') ->
  triple hg (Inv H K') (sim_run o fuel partial c1 c2 i)
    (fun p w => Inv (left_by p ++ H) (e1 (snd p) :: e2 (snd p) :: K) w /\ ((forall k, o_done o k = false) -> fst p = Compared)).
Proof.
  intros Hi sK. eapply tr_bind; [apply st_incRef; cbn; auto|]. intros ?. eapply tr_bind; [apply st_incRef; cbn; auto|]. intros ?.
  eapply tr_bind; [eapply tr_pre; [apply (st_run_two H hang_ok fuel partial (Two c1 i c2 i))|intros w; apply drop; exact sK]|].
  intros [[] s]; cbn [fst snd].
  - apply tr_bind with (Q := fun _ w => Inv (e2 s :: H) (e1 s :: K) w).
    { eapply tr_pre; [apply st_decRef|]. intros w [I _]. exact I. }
    intros ?. eapply tr_bind; [apply st_decRef|]. intros ?. apply tr_ret. intros w I. split; [|reflexivity].
    cbn [left_by fst List.app]. eapply Inv_keep; [|exact I]. cbn. intros n h. tauto.
  - apply tr_ret. intros w [I nd]. split; [|exact nd]. cbn [left_by fst List.app snd].
    eapply Inv_keep; [|exact I]. cbn. intros n h. tauto.
Qed.
Lemma st_extend H : forall anc e, triple hg (Inv H (e :: K)) (extend o anc e) (fun e' w => Inv H (e' :: K) w).
Proof.
  induction anc as [|k IH]; intros e; cbn [extend]; [apply tr_ret; auto|].
  eapply tr_bind; [apply st_use; cbn; auto|]. intros ?. eapply tr_bind; [apply st_fresh|]. intros e'.
  eapply tr_pre; [apply IH|]. intros w. apply Inv_keep. cbn. intros n h. tauto.
Qed.
Lemma st_setRandom H t : triple hg (Inv H K) (setRandomInitialState o t) (fun e w => Inv H (e :: K) w).
Proof.
  destruct t as [|gates anc]; cbn [setRandomInitialState]; [apply st_fresh|].
  eapply tr_bind; [apply st_fresh|]. intros z.
  apply tr_bind with (Q := fun e w => Inv (e :: H) K w).
  { eapply tr_bind; [apply st_incRef; cbn; auto|]. intros ?. eapply tr_pre; [apply st_swap_times|]. intros w. apply drop. sub. }
  intros e. eapply tr_bind; [apply st_decRef|]. intros ?. apply st_extend.
Qed.
End Steps.

(** sessions *)
Lemma st_simulations (hg : Prop) H fuel partial cexIn cexOut c1 c2 :
  cexIn = false \/ (forall k, o_gc o k = false) -> hg ->
  forall ts, triple hg (Inv H []) (simulations o fuel partial cexIn cexOut c1 c2 ts)
    (fun l w => Inv (l ++ H) [] w /\ ((forall k, o_done o k = false) -> l = [])).
Proof.
  intros hc hok. induction ts as [|t ts IH]; cbn [simulations]; [apply tr_ret; auto|].
  eapply tr_bind; [apply st_setRandom; auto|]. intros i.
  set (K := if cexIn then [i] else []).
  assert (Kok : K = [] \/ forall k, o_gc o k = false) by (unfold K; destruct hc as [->|hc]; auto).
  eapply tr_bind; [apply (st_sim_run hg K Kok H hok fuel partial c1 c2 i [i])|].
  { now left. }
  { unfold K. destruct cexIn; auto. intros n []. }
  intros [[] s]; cbn [fst snd].
  - eapply tr_bind; [eapply tr_pre; [apply st_flag|]|].
    { intros w [I _]. exact I. }
    intros []; [|eapply tr_pre; [apply IH|]; intros w; apply Inv_keep; intros n []].
    apply tr_bind with (Q := fun _ w => Inv (left_by (Compared, s) ++ H) (e1 s :: e2 s :: K) w); [|intros u; apply tr_ret; intros w I; split; [eapply Inv_keep; [|exact I]; intros n []|reflexivity]].
    unfold store. eapply tr_bind.
    { instantiate (1 := fun _ w => Inv (left_by (Compared, s) ++ H) (e1 s :: e2 s :: K) w). destruct cexIn; [|apply tr_ret; auto].
      apply st_use. right. cbn. auto. }
    intros u. destruct cexOut; [|apply tr_ret; auto].
    eapply tr_bind; [apply st_use; cbn; auto|]. intros v. apply st_use; cbn; auto.
  - apply tr_ret. intros w [I nd]. split; [eapply Inv_keep; [|exact I]; intros n []|]. intros h. discriminate (nd h).
Qed.
Lemma st_session (hg : Prop) H fuel partial cexIn cexOut c1 c2 ts :
  cexIn = false \/ (forall k, o_gc o k = false) -> hg ->
  triple hg (Inv H []) (sim_session o fuel partial cexIn cexOut c1 c2 ts)
    (fun l w => Inv (l ++ H) [] w /\ ((forall k, o_done o k = false) -> l = [])).
Proof.
  intros hc hok. eapply tr_bind; [apply st_fresh|]. intros z. eapply tr_pre; [apply st_simulations; auto|].
  intros w. apply Inv_keep. intros n [].
Qed.
End Proofs.

Lemma unref_Inv w : unreferenced w -> Inv [] [] w.
Proof.
  intros h. split; [|split; intros; cbn in *; contradiction].
  intros n Hn. apply h. intros ->. discriminate Hn.
Qed.
Lemma Inv_references l w : Inv (l ++ []) [] w -> references w l /\ intact w l.
Proof.
  rewrite app_nil_r. intros I. split.
  - intros n Hn. apply I. apply N.eqb_neq. exact Hn.
  - intros n Hn. pose proof (Inv_alive _ _ _ n I (or_introl Hn)) as a. unfold alive, terminal in a.
    apply orb_true_iff in a as [a|a]; [left; now apply N.eqb_eq|now right].
Qed.
Definition exact_run (r : res (list node)) : Prop :=
  match r with Ok l w => references w l /\ intact w l | Fault _ => False | Hang => True end.
Lemma construction_exact o w fuel partial c1 c2 : unreferenced w -> exact_run (con_run o fuel partial c1 c2 w).
Proof.
  intros h. generalize (st_con_run o True [] (or_introl eq_refl) [] I fuel partial c1 c2 w (unref_Inv w h)).
  unfold exact_run. destruct (con_run o fuel partial c1 c2 w); auto. apply Inv_references.
Qed.
Lemma alternating_exact o w look refused fuel c1 c2 : unreferenced w -> exact_run (alt_run o look refused fuel c1 c2 w).
Proof.
  intros h. generalize (st_alt_run o True [] (or_introl eq_refl) [] I look refused fuel c1 c2 w (unref_Inv w h)).
  unfold exact_run. destruct (alt_run o look refused fuel c1 c2 w); auto. apply Inv_references.
Qed.
Lemma simulation_exact o w fuel partial cexIn cexOut c1 c2 ts : unreferenced w -> cexIn = false \/ never_collects o ->
  exact_run (sim_session o fuel partial cexIn cexOut c1 c2 ts w).
Proof.
  intros h hc. generalize (st_session o True [] fuel partial cexIn cexOut c1 c2 ts hc I w (unref_Inv w h)).
  unfold exact_run. destruct (sim_session o fuel partial cexIn cexOut c1 c2 ts w); auto. intros [J _]. now apply Inv_references.
Qed.
Lemma simulation_nothing_left o w fuel partial cexIn cexOut c1 c2 ts l w' : unreferenced w -> cexIn = false \/ never_collects o -> never_cancelled o ->
  sim_session o fuel partial cexIn cexOut c1 c2 ts w = Ok l w' -> unreferenced w'.
Proof.
  intros h hc nd E. generalize (st_session o True [] fuel partial cexIn cexOut c1 c2 ts hc I w (unref_Inv w h)).
  rewrite E. intros [J n]. rewrite (n nd) in J. now apply (Inv_references [] w').
Qed.
