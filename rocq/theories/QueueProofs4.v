(** Every step of the queue preserves the invariant: consumers. Main lemmas about executions. *)
From Coq Require Import List Bool Arith Lia.
From Verif Require Import Queue QueueSpec QueueProofs QueueProofs2 QueueProofs3.
Import ListNotations.

Section P.
Context {V : Type}.
Notation qst := (qst V). Notation pc := (pc V). Notation ev := (ev V). Notation node := (node V).

Ltac lk := unfold lockt; cbn; auto 7.
Ltac local I E :=
  cbn [fst]; eapply inv_local with (1 := I); try reflexivity; rewrite ?E; cbn;
    try (intros; discriminate); try (now left); try (now right); try lia; try (unfold lockt, waitt; cbn; tauto); try (now constructor).

Lemma hm_unique s ns h tr t u : Inv (V:=V) s ns h tr -> in_head (q_pc V s t) = true -> in_head (q_pc V s u) = true -> u = t.
Proof. intros I A B. apply (i_hm _ _ _ _ I) in A, B. congruence. Qed.

Lemma good_test s ns h tr t k f tl : Inv s ns h tr -> q_pc V s t = CCmp V k f tl ->
  forall r, after_test V s t k f (head_is V s tl) = Some r -> good tr t r.
Proof.
  intros I E r. pose proof (i_thr _ _ _ _ I t) as T. rewrite E in T. cbn in T. destruct T as (T1 & T2 & T3).
  unfold after_test. destruct k; cbn in T1; subst.
  - destruct (head_is V s tl) eqn:EH; unfold ok; intros [= <-]; eexists _, ns, h; (split; [reflexivity|]); local I E; rewrite app_nil_r.
    + split; [discriminate|exact T2].
    + repeat split; [discriminate|exact T2|now apply T3].
  - cbn in T2. destruct f.
    + destruct (head_is V s tl) eqn:EH; unfold ok; intros [= <-]; eexists _, ns, h; (split; [reflexivity|]); local I E; rewrite app_nil_r.
      * split; [discriminate|exact T2].
      * split; [exact Logic.I|exact T2].
    + unfold ok; intros [= <-]; eexists _, ns, h; (split; [reflexivity|]); local I E; rewrite app_nil_r. split; [exact Logic.I|exact T2].
    + destruct (head_is V s tl) eqn:EH; unfold ok; intros [= <-]; eexists _, ns, h; (split; [reflexivity|]); local I E; rewrite app_nil_r.
      * exists (LNone V). split; [exact T2|constructor].
      * repeat split; [discriminate|exact T2|now apply T3].
  - unfold ok. intros [= <-]. eexists _, ns, h; (split; [reflexivity|]). local I E. rewrite app_nil_r.
    exists (LTest V (head_is V s tl)). split; [exact T2|constructor].
Qed.

Lemma good_read s ns h tr t k f : Inv s ns h tr -> q_pc V s t = CRead V k f ->
  forall r, ok V (read_event V k f (head_is V s (q_tail V s))) (goto V s t (CRel V k f (q_tail V s))) = Some r -> good tr t r.
Proof.
  intros I E r. pose proof (i_thr _ _ _ _ I t) as T. rewrite E in T. cbn in T. destruct T as (T1 & T2).
  assert (HH : q_head V s = Some h) by (apply (head_held s ns h tr t I); rewrite E; [reflexivity|discriminate]).
  pose proof (head_is_tail _ _ _ _ I HH) as HT. unfold ok. intros [= <-]. eexists _, ns, h. split; [reflexivity|].
  assert (HA : after_read s k f (q_tail V s) (of_thread t tr ++ read_event V k f (head_is V s (q_tail V s)))).
  { unfold after_read, read_event. destruct k; cbn in T1; subst; cbn [op_of] in *; rewrite ?app_nil_r; auto.
    - destruct f; rewrite ?app_nil_r; auto. destruct (head_is V s (q_tail V s)); rewrite ?app_nil_r; auto. now apply pend_eff.
    - now apply pend_eff. }
  assert (HN : head_is V s (q_tail V s) = false -> ns <> []) by (rewrite HT; now destruct ns).
  cbn [fst]. eapply inv_local with (1 := I); try reflexivity; rewrite ?E; try (intros; discriminate); try (now left); try lk.
  - unfold read_event. rewrite HT. destruct k, f; cbn in *; try discriminate; try (now constructor).
    all: destruct ns as [|[a v] r0]; cbn; repeat constructor.
  - unfold read_event. rewrite HT. destruct k, f; cbn; try lia. destruct ns; cbn; lia.
Qed.

Lemma good_pop1 s ns h tr t k : Inv s ns h tr -> q_pc V s t = CPop1 V k ->
  forall r, step_cons V s t (CPop1 V k) (Go V) = Some r -> good tr t r.
Proof.
  intros I E r. pose proof (i_thr _ _ _ _ I t) as T. rewrite E in T. cbn in T. destruct T as (T1 & T2 & T3).
  assert (HH : q_head V s = Some h) by (apply (head_held s ns h tr t I); rewrite E; [reflexivity|discriminate]).
  cbn [step_cons]. rewrite HH. unfold ok. intros [= <-]. eexists _, ns, h. split; [reflexivity|]. cbn [fst]. constructor; cbn; try apply I.
  - right. split; [reflexivity|]. exists t, k. now rewrite upd_eq.
  - apply lock_keep with (m := q_hm V s); [apply I|rewrite E; lk].
  - apply lock_keep with (m := q_tm V s); [apply I|rewrite E; lk].
  - apply wait_keep with (w := q_wait V s); [apply I|rewrite E; left; auto].
  - intros u a. destruct (Nat.eq_dec u t) as [->|N]; [rewrite upd_eq; discriminate|rewrite upd_neq by exact N; apply I].
  - intros u u' b. destruct (Nat.eq_dec u t) as [->|N], (Nat.eq_dec u' t) as [->|N']; rewrite ?upd_eq, ?upd_neq by assumption; try discriminate; try congruence. apply I.
  - rewrite app_nil_r. apply I.
  - intros u. rewrite app_nil_r. destruct (Nat.eq_dec u t) as [->|N].
    + rewrite upd_eq. cbn. repeat split; auto. pose proof (i_chain _ _ _ _ I) as HC. destruct ns as [|[a v] ns]; [congruence|]. cbn in HC. cbn. symmetry. apply HC.
    + rewrite upd_neq by exact N. pose proof (i_thr _ _ _ _ I u) as TU.
      assert (HU : in_head (q_pc V s u) = false).
      { destruct (in_head (q_pc V s u)) eqn:EU; [|reflexivity]. exfalso. apply N. apply (hm_unique _ _ _ _ t u I); [now rewrite E|exact EU]. }
      unfold tI, after_read, head_is in *. destruct (q_pc V s u) as [| | | | | | | | | | | | | | | | ? [?|?] |]; cbn in *; try discriminate; exact TU.
Qed.

Lemma good_pop2 s ns h tr t k old : Inv s ns h tr -> q_pc V s t = CPop2 V k old ->
  forall r, step_cons V s t (CPop2 V k old) (Go V) = Some r -> good tr t r.
Proof.
  intros I E r. pose proof (i_thr _ _ _ _ I t) as T. rewrite E in T. cbn in T. destruct T as (T1 & T2 & T3 & T4).
  assert (OH : old = h).
  { destruct (i_head _ _ _ _ I) as [[H NP]|(H & u & k' & HP)]; [exfalso; eapply NP; exact E|].
    assert (u = t) by (apply (hm_unique _ _ _ _ t u I); [now rewrite E|now rewrite HP]). subst u. congruence. }
  subst old. pose proof (i_chain _ _ _ _ I) as HC. destruct ns as [|[a v] ns]; [congruence|]. cbn in HC. destruct HC as [-> (b & HB & HC)].
  assert (ND := i_nodup _ _ _ _ I). unfold addrs in ND. cbn in ND. inversion ND as [|? ? ND1 ND2]; subst.
  cbn [step_cons]. rewrite HB. unfold ok. cbn [n_data n_next]. intros [= <-]. cbn [fst].
  assert (NP : forall u x, private (q_pc V s u) = Some x -> x <> a).
  { intros u x P ->. destruct (i_priv _ _ _ _ I u a P) as (_ & B & _). apply B. unfold addrs. cbn. now left. }
  assert (HTA : q_tail V s <> a). { intros EX. apply ND1. rewrite <- EX. apply in_or_app. right. now left. }
  eexists _, ns, b. split; [reflexivity|]. constructor; cbn.
  - apply chain_upd; [exact HC|]. intros IN. apply ND1. apply in_or_app. now left.
  - exact ND2.
  - intros x IN. apply (i_fresh _ _ _ _ I). unfold addrs in *. cbn. now right.
  - rewrite upd_neq by exact HTA. apply I.
  - left. split; [reflexivity|]. intros u k' x. destruct (Nat.eq_dec u t) as [->|N]; [rewrite upd_eq; discriminate|].
    rewrite upd_neq by exact N. intros HP. apply N. apply (hm_unique _ _ _ _ t u I); [now rewrite E|now rewrite HP].
  - apply lock_keep with (m := q_hm V s); [apply I|rewrite E; lk].
  - apply lock_keep with (m := q_tm V s); [apply I|rewrite E; lk].
  - apply wait_keep with (w := q_wait V s); [apply I|rewrite E; left; auto].
  - intros u x. destruct (Nat.eq_dec u t) as [->|N].
    + rewrite upd_eq. cbn. intros [= <-]. split; [apply (i_fresh _ _ _ _ I); now left|]. split; [exact ND1|]. rewrite upd_eq. eauto.
    + rewrite upd_neq by exact N. intros P. destruct (i_priv _ _ _ _ I u x P) as (A & B & C). split; [exact A|]. split.
      * intros IN. apply B. unfold addrs in *. cbn. now right.
      * rewrite upd_neq; [exact C|]. exact (NP u x P).
  - intros u u' x. destruct (Nat.eq_dec u t) as [->|N], (Nat.eq_dec u' t) as [->|N']; rewrite ?upd_eq, ?upd_neq by assumption; try congruence.
    + cbn. intros [= <-] P. now apply NP in P.
    + cbn. intros P [= <-]. now apply NP in P.
    + apply I.
  - rewrite effects_app. cbn. eapply fifo_snoc_ls; [apply I|]. cbn. constructor. constructor.
  - intros u. rewrite of_thread_app. change [(t, ELin V (LPop V v))] with (map (pair t) [ELin V (LPop V v)]). destruct (Nat.eq_dec u t) as [->|N].
    + rewrite upd_eq, of_thread_same. cbn. split; [exact T1|]. exists v, None. rewrite upd_eq. split; [reflexivity|]. now apply pend_eff.
    + rewrite upd_neq, of_thread_other, app_nil_r by exact N. pose proof (i_thr _ _ _ _ I u) as TU.
      assert (HU : in_head (q_pc V s u) = false).
      { destruct (in_head (q_pc V s u)) eqn:EU; [|reflexivity]. exfalso. apply N. apply (hm_unique _ _ _ _ t u I); [now rewrite E|exact EU]. }
      unfold tI, after_read, head_is in *. specialize (NP u).
      destruct (q_pc V s u) as [| | | | | | | | | | | | | | | | ? [?|?] |]; cbn in *; try discriminate; rewrite ?(upd_neq _ _ _ _ HTA);
        rewrite ?upd_neq by (apply NP; reflexivity); exact TU.
Qed.

Lemma good_cons s ns h tr t c : Inv s ns h tr -> forall r, step_cons V s t (q_pc V s t) c = Some r -> good tr t r.
Proof.
  intros I r. pose proof (i_thr _ _ _ _ I t) as T. destruct (q_pc V s t) eqn:E; cbn in T; try discriminate.
  - (* CLock *) cbn. destruct c; try discriminate. destruct (is_none (q_hm V s)) eqn:EN; [|discriminate]. apply is_none_spec in EN.
    unfold ok. intros [= <-]. eexists _, ns, h. split; [reflexivity|]. local I E. rewrite app_nil_r. split; [now destruct k|exact T].
  - (* CTail *) cbn. destruct c; try discriminate. destruct (is_none (q_tm V s)) eqn:EN; [|discriminate]. apply is_none_spec in EN.
    unfold ok. intros [= <-]. eexists _, ns, h. split; [reflexivity|]. local I E. rewrite app_nil_r. exact T.
  - (* CRead *) cbn [step_cons]. destruct c; try discriminate. now apply (good_read s ns h tr t k f).
  - (* CRel *) cbn. destruct c; try discriminate. unfold ok. intros [= <-]. eexists _, ns, h. split; [reflexivity|]. local I E.
    rewrite app_nil_r. exact T.
  - (* CCmp *) cbn [step_cons]. destruct c; try discriminate. now apply (good_test s ns h tr t k f tl).
  - (* CSleep *) cbn. destruct T as [T1 T2]. destruct c; try (destruct k; discriminate).
    + intros H. assert (H' : ok V [] (goto V (set_wait V s (remove Nat.eq_dec t (q_wait V s))) t (CRelock V k PhLoop)) = Some r) by (destruct k; exact H).
      unfold ok in H'. injection H' as <-. eexists _, ns, h. split; [reflexivity|]. local I E. rewrite app_nil_r. repeat split; auto. destruct k; cbn; auto. congruence.
    + destruct k; try discriminate. unfold ok. intros [= <-]. eexists _, ns, h. split; [reflexivity|]. local I E. rewrite app_nil_r. repeat split; auto.
  - (* CRelock *) cbn. destruct c; try discriminate. destruct (is_none (q_hm V s)) eqn:EN; [|discriminate]. apply is_none_spec in EN.
    unfold ok. intros [= <-]. eexists _, ns, h. split; [reflexivity|]. local I E. rewrite app_nil_r. tauto.
  - (* CPop1 *) destruct c; try discriminate. now apply (good_pop1 s ns h tr t k).
  - (* CPop2 *) destruct c; try discriminate. now apply (good_pop2 s ns h tr t k old).
  - (* CUnl *) cbn. destruct r0 as [old|r0]; destruct c; try discriminate; unfold ok; intros [= <-]; eexists _, ns, h; (split; [reflexivity|]).
    + local I E. rewrite app_nil_r. destruct T as [T1 (v & x & T2 & T3)]. exists v, x, k. auto.
    + local I E. destruct T as (l & T1 & T2). eapply eff_complete; eauto.
  - (* CData *) cbn. destruct c; try discriminate. destruct T as (v & x & k & T1 & T2 & T3). rewrite T2. cbn. unfold ok. intros [= <-].
    eexists _, ns, h. split; [reflexivity|]. cbn [fst].
    assert (P := i_priv _ _ _ _ I t old ltac:(now rewrite E)). destruct P as (P1 & P2 & P3).
    eapply inv_heap with (1 := I) (x := old); try reflexivity; rewrite ?E; try reflexivity; try (intros; discriminate).
    + intros IN. apply P2. unfold addrs. apply in_or_app. now left.
    + right. split; reflexivity.
    + cbn. eapply eff_complete; [exact T3|]. destruct k; try constructor. congruence.
Qed.

Lemma step_inv s ns h tr t c r : Inv s ns h tr -> step V s t c = Some r -> good tr t r.
Proof.
  intros I. destruct (q_pc V s t) eqn:E.
  1: now apply (good_call s ns h tr t c I E).
  all: unfold step; rewrite E; rewrite <- E;
    destruct (step_push V s t (q_pc V s t) c) as [r'|] eqn:ES;
    [intros [= <-]; exact (good_push s ns h tr t c I _ ES)|apply (good_cons s ns h tr t c I)].
Qed.

Lemma exec_inv sched : forall s ns h tr l o, Inv s ns h tr -> exec V s sched = Some (l, o) ->
  exists s' ns' h', o = Done V s' /\ Inv s' ns' h' (tr ++ l).
Proof.
  induction sched as [|[t c] r IH]; cbn; intros s ns h tr l o I.
  - intros [= <- <-]. exists s, ns, h. now rewrite app_nil_r.
  - destruct (step V s t c) as [[l1 o1]|] eqn:ES; [|discriminate].
    destruct (step_inv _ _ _ _ _ _ _ I ES) as (s1 & ns1 & h1 & EO & I1). cbn in EO, I1. subst o1.
    destruct (exec V s1 r) as [[l2 o2]|] eqn:EE; [|discriminate]. intros [= <- <-].
    destruct (IH _ _ _ _ _ _ I1 EE) as (s' & ns' & h' & EO & I'). exists s', ns', h'. rewrite app_assoc. auto.
Qed.

(** ** what the invariant says *)
Lemma tI_history s ns es p : tI (V:=V) s ns es p -> thread_history es.
Proof.
  assert (HP : forall o, pend es o -> thread_history es) by (intros o (e0 & C & ->); now apply history_called).
  assert (HE : forall o l r, eff es o l -> agrees o l r -> thread_history es) by (intros o l r (e0 & C & ->) A; now apply history_effect with (r := r)).
  destruct p as [| | | | | | | | | | | | | | | | ? [?|?] |]; cbn; intros T.
  - now apply history_idle.
  - eauto.
  - eauto.
  - destruct T; eauto.
  - destruct T; eauto.
  - destruct T as [v T]. eapply HE; [exact T|constructor].
  - destruct T as [v T]. eapply HE; [exact T|constructor].
  - eauto.
  - destruct T; eauto.
  - destruct T; eauto.
  - destruct T as (_ & T & _). unfold after_read in T. destruct k; cbn in T; eauto.
    + destruct f; eauto. destruct (head_is V s tl); eauto. eapply HE; [exact T|constructor].
    + eapply HE; [exact T|constructor].
  - destruct T as (_ & T & _). unfold after_read in T. destruct k; cbn in T; eauto.
    + destruct f; eauto. destruct (head_is V s tl); eauto. eapply HE; [exact T|constructor].
    + eapply HE; [exact T|constructor].
  - destruct T; eauto.
  - destruct T as (_ & _ & T); eauto.
  - destruct T as (_ & T & _); eauto.
  - destruct T as (_ & T & _); eauto.
  - destruct T as (W & v & x & _ & T). destruct k; cbn in T; try (eapply HE; [exact T|constructor]). now elim W.
  - destruct T as (l & T & A). eauto.
  - destruct T as (v & x & k & W & _ & T). destruct k; cbn in T; try (eapply HE; [exact T|constructor]). now elim W.
Qed.

Lemma exec_linearised sched l o : exec V (q_init V) sched = Some (l, o) -> exists s q, o = Done V s /\ linearised l q.
Proof.
  intros H. destruct (exec_inv _ _ _ _ _ _ _ inv_init H) as (s & ns & h & -> & I). cbn in I.
  exists s, (map snd ns). split; [reflexivity|]. split; [apply I|]. intros t. apply (tI_history s ns _ (q_pc V s t)). apply I.
Qed.
End P.
