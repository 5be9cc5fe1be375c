(** Every step of the queue preserves the invariant. *)
From Coq Require Import List Bool Arith Lia.
From Verif Require Import Queue QueueSpec QueueProofs.
Import ListNotations.

Section P.
Context {V : Type}.
Notation qst := (qst V). Notation pc := (pc V). Notation ev := (ev V). Notation node := (node V).

Lemma tI_ext (s s' : qst) ns es p : q_heap V s' = q_heap V s -> q_tail V s' = q_tail V s -> q_head V s' = q_head V s ->
  tI s ns es p -> tI s' ns es p.
Proof. intros E1 E2 E3. unfold tI, after_read, head_is. rewrite E1, E2, E3. auto. Qed.

(** a flag and the mutex it stands for change together *)
Definition lockt (t : nat) (b b' : bool) (m m' : option nat) : Prop :=
  b = b' /\ m' = m \/ b = false /\ b' = true /\ m = None /\ m' = Some t \/ b = true /\ b' = false /\ m' = None.

Lemma lock_keep (f : pc -> bool) (g : nat -> pc) t p' m m' :
  (forall u, f (g u) = true <-> m = Some u) -> lockt t (f (g t)) (f p') m m' ->
  forall u, f (upd g t p' u) = true <-> m' = Some u.
Proof.
  intros H L u. destruct (Nat.eq_dec u t) as [->|N].
  - rewrite upd_eq. specialize (H t). destruct L as [[E ->]|[(E1 & E2 & E3 & ->)|(E1 & E2 & ->)]].
    + now rewrite <- E.
    + rewrite E2. tauto.
    + rewrite E2. split; congruence.
  - rewrite upd_neq by exact N. destruct L as [[E ->]|[(E1 & E2 & E3 & ->)|(E1 & E2 & ->)]].
    + apply H.
    + split; [|congruence]. intros F. apply H in F. congruence.
    + split; [|congruence]. intros F. apply H in F. apply H in E1. congruence.
Qed.

Definition waitt (t : nat) (b b' : bool) (w w' : list nat) : Prop :=
  b = b' /\ w' = w \/ b' = true /\ w' = t :: w \/ b' = false /\ w' = remove Nat.eq_dec t w.

Lemma wait_keep (g : nat -> pc) t p' w w' :
  (forall u, In u w <-> is_sleep (g u) = true) -> waitt t (is_sleep (g t)) (is_sleep p') w w' ->
  forall u, In u w' <-> is_sleep (upd g t p' u) = true.
Proof.
  intros H L u. destruct (Nat.eq_dec u t) as [->|N].
  - rewrite upd_eq. specialize (H t). destruct L as [[E ->]|[(E2 & ->)|(E2 & ->)]].
    + now rewrite <- E.
    + rewrite E2. cbn. tauto.
    + rewrite E2. split; [|discriminate]. intros F. now apply remove_In in F.
  - rewrite upd_neq by exact N. rewrite <- H. destruct L as [[E ->]|[(E2 & ->)|(E2 & ->)]].
    + reflexivity.
    + cbn. split; [intros [->|F]; [contradiction|exact F]|tauto].
    + split; [intros F; now apply in_remove in F|intros F; now apply in_in_remove].
Qed.

(** steps that change neither the heap nor head nor tail *)
Lemma inv_local s s' ns h tr t p' l :
  Inv s ns h tr ->
  q_heap V s' = q_heap V s -> q_fresh V s' = q_fresh V s -> q_tail V s' = q_tail V s -> q_head V s' = q_head V s ->
  q_pc V s' = upd (q_pc V s) t p' ->
  (forall k a, q_pc V s t <> CPop2 V k a) -> (forall k a, p' <> CPop2 V k a) ->
  (private p' = None \/ private p' = private (q_pc V s t)) ->
  lockt t (in_head (q_pc V s t)) (in_head p') (q_hm V s) (q_hm V s') ->
  lockt t (in_tail (q_pc V s t)) (in_tail p') (q_tm V s) (q_tm V s') ->
  waitt t (is_sleep (q_pc V s t)) (is_sleep p') (q_wait V s) (q_wait V s') ->
  fifo (map snd ns) (effects (map (pair t) l)) (map snd ns) -> (length (effects (map (pair t) l)) <= 1) ->
  tI s ns (of_thread t tr ++ l) p' ->
  Inv s' ns h (tr ++ map (pair t) l).
Proof.
  intros I E1 E2 E3 E4 E5 N1 N2 PR L1 L2 L3 F FL T. constructor; rewrite ?E1, ?E2, ?E3, ?E4, ?E5.
  - apply I.
  - apply I.
  - apply I.
  - apply I.
  - destruct (i_head _ _ _ _ I) as [[H NP]|(H & u & k & HP)]; [left|right]; (split; [exact H|]).
    + intros u k a. destruct (Nat.eq_dec u t) as [->|N]; [rewrite upd_eq; apply N2|rewrite upd_neq by exact N; apply NP].
    + exists u, k. rewrite upd_neq; [exact HP|]. intros ->. now apply N1 in HP.
  - apply lock_keep with (m := q_hm V s); [apply I|exact L1].
  - apply lock_keep with (m := q_tm V s); [apply I|exact L2].
  - apply wait_keep with (w := q_wait V s); [apply I|exact L3].
  - intros u a. destruct (Nat.eq_dec u t) as [->|N].
    + rewrite upd_eq. intros P. destruct PR as [PR|PR]; [congruence|]. apply (i_priv _ _ _ _ I t). congruence.
    + rewrite upd_neq by exact N. apply I.
  - intros u u' a. destruct (Nat.eq_dec u t) as [->|N], (Nat.eq_dec u' t) as [->|N']; rewrite ?upd_eq, ?upd_neq by assumption; try congruence.
    + intros P P'. destruct PR as [PR|PR]; [congruence|]. apply (i_dist _ _ _ _ I t u' a); congruence.
    + intros P P'. destruct PR as [PR|PR]; [congruence|]. apply (i_dist _ _ _ _ I u t a); congruence.
    + apply I.
  - rewrite effects_app. destruct (effects (map (pair t) l)) as [|e [|e' r]] eqn:EE.
    + rewrite app_nil_r. apply I.
    + eapply fifo_snoc_ls; [apply I|exact F].
    + cbn in FL. lia.
  - intros u. rewrite of_thread_app. destruct (Nat.eq_dec u t) as [->|N].
    + rewrite upd_eq, of_thread_same. now apply (tI_ext s s').
    + rewrite upd_neq, of_thread_other, app_nil_r by exact N. apply (tI_ext s s'); auto. apply I.
Qed.

Definition good (tr : list (nat * ev)) (t : nat) (r : list ev * outcome V) : Prop :=
  exists s' ns' h', snd r = Done V s' /\ Inv s' ns' h' (tr ++ map (pair t) (fst r)).

Ltac lk := unfold lockt; cbn; auto 7.
Ltac local I E :=
  cbn [fst]; eapply inv_local with (1 := I); try reflexivity; rewrite ?E; cbn;
    try (intros; discriminate); try (now left); try (now right); try lia; try (unfold lockt, waitt; cbn; tauto); try (now constructor).

Lemma is_none_spec {A} (o : option A) : is_none o = true -> o = None.
Proof. now destruct o. Qed.

(** the logical head while a thread holds the head mutex outside of popHead *)
Lemma head_held s ns h tr t : Inv s ns h tr -> in_head (q_pc V s t) = true -> (forall k a, q_pc V s t <> CPop2 V k a) ->
  q_head V s = Some h.
Proof.
  intros I HH NP. destruct (i_head _ _ _ _ I) as [[H _]|(H & u & k & HP)]; [exact H|]. exfalso.
  assert (HU : in_head (q_pc V s u) = true) by now rewrite HP.
  apply (i_hm _ _ _ _ I) in HU, HH. assert (u = t) by congruence. subst u. now apply NP in HP.
Qed.

Lemma head_is_tail s ns h tr : Inv s ns h tr -> q_head V s = Some h -> head_is V s (q_tail V s) = match ns with [] => true | _ => false end.
Proof.
  intros I H. unfold head_is. rewrite H. destruct (chain_empty _ _ _ _ (i_chain _ _ _ _ I) (i_nodup _ _ _ _ I)) as [A B].
  destruct (Nat.eqb_spec h (q_tail V s)) as [E|E]; destruct ns; try reflexivity; exfalso.
  - specialize (A E). discriminate.
  - apply E, B. reflexivity.
Qed.

Lemma good_call s ns h tr t c : Inv s ns h tr -> q_pc V s t = Idle V -> forall r, step V s t c = Some r -> good tr t r.
Proof.
  intros I E r. unfold step. rewrite E. pose proof (i_thr _ _ _ _ I t) as T. rewrite E in T. cbn in T.
  destruct c as [|o|w| |]; try discriminate. destruct o as [v| | |]; unfold ok; intros [= <-].
  - (* push: the new node is private *)
    eexists _, ns, h. split; [reflexivity|]. cbn. constructor; cbn.
    + apply chain_upd; [apply I|]. intros IN. assert (q_fresh V s < q_fresh V s); [|lia].
      apply (i_fresh _ _ _ _ I). unfold addrs. apply in_or_app. now left.
    + apply I.
    + intros a IN. apply (i_fresh _ _ _ _ I) in IN. lia.
    + destruct (i_tail _ _ _ _ I) as [n HT]. exists n. rewrite upd_neq; [exact HT|].
      assert (q_tail V s < q_fresh V s); [|lia]. apply (i_fresh _ _ _ _ I). unfold addrs. apply in_or_app. right. now left.
    + destruct (i_head _ _ _ _ I) as [[H NP]|(H & u & k & HP)]; [left|right]; (split; [exact H|]).
      * intros u k a. destruct (Nat.eq_dec u t) as [->|N]; [rewrite upd_eq; discriminate|rewrite upd_neq by exact N; apply NP].
      * exists u, k. rewrite upd_neq; [exact HP|]. intros ->. congruence.
    + apply lock_keep with (m := q_hm V s); [apply I|rewrite E; lk].
    + apply lock_keep with (m := q_tm V s); [apply I|rewrite E; lk].
    + apply wait_keep with (w := q_wait V s); [apply I|rewrite E; left; auto].
    + intros u a. destruct (Nat.eq_dec u t) as [->|N].
      * rewrite upd_eq. cbn. intros [= <-]. split; [lia|]. split; [|rewrite upd_eq; eauto].
        intros IN. apply (i_fresh _ _ _ _ I) in IN. lia.
      * rewrite upd_neq by exact N. intros P. destruct (i_priv _ _ _ _ I u a P) as (A & B & C). split; [lia|]. split; [exact B|].
        destruct C as [n C]. exists n. rewrite upd_neq; [exact C|lia].
    + intros u u' a. destruct (Nat.eq_dec u t) as [->|N], (Nat.eq_dec u' t) as [->|N']; rewrite ?upd_eq, ?upd_neq by assumption; try congruence.
      * cbn. intros [= <-] P. destruct (i_priv _ _ _ _ I u' _ P). lia.
      * cbn. intros P [= <-]. destruct (i_priv _ _ _ _ I u _ P). lia.
      * apply I.
    + rewrite effects_app. cbn. rewrite app_nil_r. apply I.
    + intros u. rewrite of_thread_app. destruct (Nat.eq_dec u t) as [->|N].
      * rewrite upd_eq. cbn. rewrite Nat.eqb_refl. cbn. now apply complete_pend.
      * change [(t, ECall V (OPush V v))] with (map (pair t) [ECall V (OPush V v)]).
        rewrite upd_neq, of_thread_other, app_nil_r by exact N. pose proof (i_thr _ _ _ _ I u) as TU.
        assert (HP : forall a, private (q_pc V s u) = Some a -> upd (q_heap V s) (q_fresh V s) (Some (mkNode V None None)) a = q_heap V s a).
        { intros a P. destruct (i_priv _ _ _ _ I u _ P). apply upd_neq. lia. }
        assert (HT : upd (q_heap V s) (q_fresh V s) (Some (mkNode V None None)) (q_tail V s) = q_heap V s (q_tail V s)).
        { apply upd_neq. assert (q_tail V s < q_fresh V s); [|lia]. apply (i_fresh _ _ _ _ I). unfold addrs. apply in_or_app. right. now left. }
        unfold tI, after_read, head_is in *. cbn in *.
        destruct (q_pc V s u) as [| | | | | | | | | | | | | | | | ? [?|?] |]; cbn in *; rewrite ?HT; rewrite ?HP by reflexivity; exact TU.
  - eexists _, ns, h. split; [reflexivity|]. local I E. now apply complete_pend.
  - eexists _, ns, h. split; [reflexivity|]. local I E. now apply complete_pend.
  - eexists _, ns, h. split; [reflexivity|]. local I E. now apply complete_pend.
Qed.
End P.
