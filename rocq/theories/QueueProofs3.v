(** Every step of the queue preserves the invariant: the remaining steps. *)
From Coq Require Import List Bool Arith Lia.
From Verif Require Import Queue QueueSpec QueueProofs QueueProofs2.
Import ListNotations.

Section P.
Context {V : Type}.
Notation qst := (qst V). Notation pc := (pc V). Notation ev := (ev V). Notation node := (node V).

Ltac lk := unfold lockt; cbn; auto 7.
Ltac local I E :=
  cbn [fst]; eapply inv_local with (1 := I); try reflexivity; rewrite ?E; cbn;
    try (intros; discriminate); try (now left); try (now right); try lia; try (unfold lockt, waitt; cbn; tauto); try (now constructor).

(** steps that write one node and nothing else *)
Lemma inv_heap s s' ns h tr t p' l x n' :
  Inv s ns h tr ->
  q_heap V s' = upd (q_heap V s) x n' -> q_fresh V s' = q_fresh V s -> q_tail V s' = q_tail V s -> q_head V s' = q_head V s ->
  q_hm V s' = q_hm V s -> q_tm V s' = q_tm V s -> q_wait V s' = q_wait V s ->
  q_pc V s' = upd (q_pc V s) t p' ->
  (forall k a, q_pc V s t <> CPop2 V k a) -> (forall k a, p' <> CPop2 V k a) ->
  ~ In x (map fst ns) ->
  (x = q_tail V s /\ in_tail (q_pc V s t) = true /\ n' <> None /\ private p' = private (q_pc V s t) \/
   private (q_pc V s t) = Some x /\ private p' = None) ->
  in_head (q_pc V s t) = in_head p' -> in_tail (q_pc V s t) = in_tail p' -> is_sleep (q_pc V s t) = is_sleep p' ->
  effects (map (pair t) l) = [] ->
  tI s' ns (of_thread t tr ++ l) p' ->
  Inv s' ns h (tr ++ map (pair t) l).
Proof.
  intros I E1 E2 E3 E4 Eh Et Ew E5 N1 N2 NX X L1 L2 L3 F T.
  assert (PX : forall u a, u <> t -> private (q_pc V s u) = Some a -> a <> x).
  { intros u a N P ->. destruct X as [(-> & X)|[X _]].
    - destruct (i_priv _ _ _ _ I u _ P) as (_ & B & _). apply B. unfold addrs. apply in_or_app. right. now left.
    - apply N. exact (i_dist _ _ _ _ I u t x P X). }
  constructor; rewrite ?E2, ?E3, ?E4, ?E5, ?Eh, ?Et, ?Ew.
  - rewrite E1. apply chain_upd; [apply I|exact NX].
  - apply I.
  - apply I.
  - rewrite E1. destruct X as [(-> & _ & X & _)|[X _]].
    + rewrite upd_eq. destruct n' as [n'|]; [eauto|congruence].
    + rewrite upd_neq; [apply I|]. intros E. destruct (i_priv _ _ _ _ I t _ X) as (_ & B & _). apply B. unfold addrs. apply in_or_app. right. now left.
  - destruct (i_head _ _ _ _ I) as [[H NP]|(H & u & k & HP)]; [left|right]; (split; [exact H|]).
    + intros u k a. destruct (Nat.eq_dec u t) as [->|N]; [rewrite upd_eq; apply N2|rewrite upd_neq by exact N; apply NP].
    + exists u, k. rewrite upd_neq; [exact HP|]. intros ->. now apply N1 in HP.
  - apply lock_keep with (m := q_hm V s); [apply I|left; auto].
  - apply lock_keep with (m := q_tm V s); [apply I|left; auto].
  - apply wait_keep with (w := q_wait V s); [apply I|left; auto].
  - intros u a. destruct (Nat.eq_dec u t) as [->|N].
    + rewrite upd_eq. intros P. destruct X as [(-> & X1 & X2 & X3)|[X X']]; [|congruence].
      destruct (i_priv _ _ _ _ I t a) as (A & B & C); [congruence|]. split; [exact A|]. split; [exact B|].
      rewrite E1, upd_neq; [exact C|]. intros ->. apply B. unfold addrs. apply in_or_app. right. now left.
    + rewrite upd_neq by exact N. intros P. destruct (i_priv _ _ _ _ I u a P) as (A & B & C). split; [exact A|]. split; [exact B|].
      rewrite E1, upd_neq; [exact C|]. exact (PX u a N P).
  - intros u u' a. destruct (Nat.eq_dec u t) as [->|N], (Nat.eq_dec u' t) as [->|N']; rewrite ?upd_eq, ?upd_neq by assumption; try congruence.
    + intros P P'. destruct X as [(_ & _ & _ & X3)|[_ X']]; [|congruence]. apply (i_dist _ _ _ _ I t u' a); congruence.
    + intros P P'. destruct X as [(_ & _ & _ & X3)|[_ X']]; [|congruence]. apply (i_dist _ _ _ _ I u t a); congruence.
    + apply I.
  - rewrite effects_app, F, app_nil_r. apply I.
  - intros u. rewrite of_thread_app. destruct (Nat.eq_dec u t) as [->|N].
    + now rewrite upd_eq, of_thread_same.
    + rewrite upd_neq, of_thread_other, app_nil_r by exact N. pose proof (i_thr _ _ _ _ I u) as TU.
      assert (HP : forall a, private (q_pc V s u) = Some a -> upd (q_heap V s) x n' a = q_heap V s a).
      { intros a P. apply upd_neq. exact (PX u a N P). }
      assert (HT : in_tail (q_pc V s u) = true -> upd (q_heap V s) x n' (q_tail V s) = q_heap V s (q_tail V s)).
      { intros HI. apply upd_neq. intros E. destruct X as [(-> & X1 & _)|[X _]].
        - apply (i_tm _ _ _ _ I) in HI, X1. congruence.
        - destruct (i_priv _ _ _ _ I t _ X) as (_ & B & _). apply B. unfold addrs. apply in_or_app. right. left. exact E. }
      unfold tI, after_read, head_is in *. rewrite E1, E3, E4.
      destruct (q_pc V s u) as [| | | | | | | | | | | | | | | | ? [?|?] |]; cbn in *; rewrite ?HT by reflexivity; rewrite ?HP by reflexivity; exact TU.
Qed.

Lemma tail_notin s ns h tr : Inv (V:=V) s ns h tr -> ~ In (q_tail V s) (map fst ns).
Proof. intros I. pose proof (i_nodup _ _ _ _ I) as N. unfold addrs in N. apply NoDup_remove_2 in N. now rewrite app_nil_r in N. Qed.

Lemma good_push s ns h tr t c : Inv s ns h tr -> forall r, step_push V s t (q_pc V s t) c = Some r -> good tr t r.
Proof.
  intros I r. pose proof (i_thr _ _ _ _ I t) as T. destruct (q_pc V s t) eqn:E; cbn in T; try discriminate; destruct c; cbn [step_push]; try discriminate.
  - (* PLock *) destruct (is_none (q_tm V s)) eqn:EN; [|discriminate]. apply is_none_spec in EN. unfold ok. intros [= <-].
    eexists _, ns, h. split; [reflexivity|]. local I E. rewrite app_nil_r. exact T.
  - (* PData *) destruct (i_tail _ _ _ _ I) as [n HN]. rewrite HN. unfold ok. intros [= <-].
    eexists _, ns, h. split; [reflexivity|]. cbn [fst].
    eapply inv_heap with (1 := I) (x := q_tail V s); try reflexivity; rewrite ?E; try reflexivity; try (intros; discriminate).
    + now apply (tail_notin _ _ _ _ I).
    + left. repeat split. discriminate.
    + cbn. rewrite app_nil_r, upd_eq. split; [exact T|eauto].
  - (* PNext *) destruct T as (T & x & HN). rewrite HN. unfold ok. intros [= <-].
    eexists _, ns, h. split; [reflexivity|]. cbn [fst].
    eapply inv_heap with (1 := I) (x := q_tail V s); try reflexivity; rewrite ?E; try reflexivity; try (intros; discriminate).
    + now apply (tail_notin _ _ _ _ I).
    + left. repeat split. discriminate.
    + cbn. rewrite app_nil_r, upd_eq. split; [exact T|reflexivity].
  - (* PTail *) destruct T as (T & HN). unfold ok. intros [= <-].
    assert (PA := i_priv _ _ _ _ I t a ltac:(now rewrite E)). destruct PA as (A1 & A2 & A3).
    assert (HTM : forall u, in_tail (q_pc V s u) = true -> u = t).
    { intros u HU. apply (i_tm _ _ _ _ I) in HU. assert (HT : in_tail (q_pc V s t) = true) by now rewrite E. apply (i_tm _ _ _ _ I) in HT. congruence. }
    eexists _, (ns ++ [(q_tail V s, v)]), h. split; [reflexivity|]. cbn [fst]. constructor; cbn.
    + now apply chain_snoc; [apply I|].
    + unfold addrs. rewrite map_app. cbn. rewrite <- (rev_involutive ((map fst ns ++ [q_tail V s]) ++ [a])). apply NoDup_rev.
      rewrite rev_app_distr. cbn. constructor; [rewrite <- in_rev; exact A2|]. apply NoDup_rev. apply I.
    + intros b. unfold addrs. rewrite map_app. cbn. intros IN. apply in_app_or in IN. destruct IN as [IN|[<-|[]]]; [|exact A1].
      now apply (i_fresh _ _ _ _ I).
    + exact A3.
    + destruct (i_head _ _ _ _ I) as [[H NP]|(H & u & k & HP)]; [left|right]; (split; [exact H|]).
      * intros u k b. destruct (Nat.eq_dec u t) as [->|N]; [rewrite upd_eq; discriminate|rewrite upd_neq by exact N; apply NP].
      * exists u, k. rewrite upd_neq; [exact HP|]. intros ->. congruence.
    + apply lock_keep with (m := q_hm V s); [apply I|rewrite E; lk].
    + apply lock_keep with (m := q_tm V s); [apply I|rewrite E; lk].
    + apply wait_keep with (w := q_wait V s); [apply I|rewrite E; left; auto].
    + intros u b. destruct (Nat.eq_dec u t) as [->|N]; [rewrite upd_eq; discriminate|]. rewrite upd_neq by exact N.
      intros P. destruct (i_priv _ _ _ _ I u b P) as (B1 & B2 & B3). split; [exact B1|]. split; [|exact B3].
      unfold addrs. rewrite map_app. cbn. intros IN. apply in_app_or in IN. destruct IN as [IN|[<-|[]]].
      * now apply B2.
      * apply N. apply (i_dist _ _ _ _ I u t a P). now rewrite E.
    + intros u u' b. destruct (Nat.eq_dec u t) as [->|N], (Nat.eq_dec u' t) as [->|N']; rewrite ?upd_eq, ?upd_neq by assumption; try discriminate; try congruence.
      apply I.
    + rewrite effects_app. cbn. eapply fifo_snoc_ls; [apply I|]. rewrite map_app. cbn. constructor. constructor.
    + intros u. rewrite of_thread_app. change [(t, ELin V (LPush V v))] with (map (pair t) [ELin V (LPush V v)]). destruct (Nat.eq_dec u t) as [->|N].
      * rewrite upd_eq, of_thread_same. cbn. exists v. now apply pend_eff.
      * rewrite upd_neq, of_thread_other, app_nil_r by exact N. pose proof (i_thr _ _ _ _ I u) as TU.
        assert (HU : in_tail (q_pc V s u) = false) by (destruct (in_tail (q_pc V s u)) eqn:EU; [now apply HTM in EU|reflexivity]).
        unfold tI, after_read, head_is in *. destruct (q_pc V s u) as [| | | | | | | | | | | | | | | | ? [?|?] |]; cbn in *; try discriminate; try exact TU.
        -- destruct TU as (T1 & T2 & T3). split; [exact T1|]. split; [exact T2|]. intros _. now destruct ns.
        -- destruct TU as (T1 & T2 & T3). split; [exact T1|]. split; [exact T2|]. now destruct ns.
        -- destruct TU as (T1 & T2 & T3 & T4). split; [exact T1|]. split; [exact T2|]. destruct ns; [congruence|]. split; [discriminate|exact T4].
  - (* PUnlock *) unfold ok. intros [= <-]. eexists _, ns, h. split; [reflexivity|]. local I E. rewrite app_nil_r. exact T.
  - (* PNotify, nobody waits *) destruct (q_wait V s) eqn:EW; [|discriminate]. unfold ok. intros [= <-]. eexists _, ns, h. split; [reflexivity|].
    local I E. destruct T as [v T]. eapply eff_complete; [exact T|constructor].
  - (* PNotify, w is woken up *) destruct (existsb (Nat.eqb w) (q_wait V s)) eqn:EW; [|discriminate]. destruct (q_pc V s w) eqn:EP; try discriminate.
    unfold ok. intros [= <-]. cbn [fst]. assert (NW : w <> t) by congruence.
    assert (I1 : Inv (goto V (set_wait V s (remove Nat.eq_dec w (q_wait V s))) w (CRelock V k PhLoop)) ns h (tr ++ map (pair w) [])).
    { local I EP. pose proof (i_thr _ _ _ _ I w) as TW. rewrite EP in TW. cbn in TW. rewrite app_nil_r. destruct TW. repeat split; auto.
      destruct k; try reflexivity; congruence. }
    rewrite app_nil_r in I1. eexists _, ns, h. split; [reflexivity|].
    assert (E' : q_pc V (goto V (set_wait V s (remove Nat.eq_dec w (q_wait V s))) w (CRelock V k PhLoop)) t = PNotify V).
    { cbn. rewrite upd_neq by congruence. exact E. }
    eapply inv_local with (1 := I1); try reflexivity; rewrite ?E'; cbn; try (intros; discriminate); auto; try lk; try (left; auto; fail); try (now constructor).
    destruct T as [v T]. eapply eff_complete; [exact T|constructor].
Qed.
End P.
