(** Every step of the queue respects the guards. *)
From Coq Require Import List Bool Arith Lia.
From Verif Require Import Queue QueueSpec QueueProofs QueueProofs2 QueueProofs3 QueueProofs4 Trace TraceProofs QueueTrace QueueTraceProofs QueueTraceProofs2.
Import ListNotations.

Section P.
Context {V : Type}.
Notation qst := (qst V). Notation pc := (pc V).
Implicit Types (s : qst).
Notation JJ B n tr s := (J B n tr (qown s) (qguard s)).

Lemma J_app2 {L} B n (tr : trace L) own G t a b : J B n ((tr ++ [(t, a)]) ++ [(t, b)]) own G -> J B n (tr ++ map (pair t) [a; b]) own G.
Proof. rewrite <- app_assoc. auto. Qed.
Lemma J_app3 {L} B n (tr : trace L) own G t a b c : J B n (((tr ++ [(t, a)]) ++ [(t, b)]) ++ [(t, c)]) own G -> J B n (tr ++ map (pair t) [a; b; c]) own G.
Proof. rewrite <- !app_assoc. auto. Qed.
Lemma J_app4 {L} B n (tr : trace L) own G t a b c d : J B n ((((tr ++ [(t, a)]) ++ [(t, b)]) ++ [(t, c)]) ++ [(t, d)]) own G -> J B n (tr ++ map (pair t) [a; b; c; d]) own G.
Proof. rewrite <- !app_assoc. auto. Qed.

(** a step that does not change what is guarded *)
Lemma J_goto B n tr s t p : JJ B n tr s ->
  (forall a, private p = Some a -> private (q_pc V s t) = Some a) ->
  (forall a, private (q_pc V s t) = Some a -> private p = Some a) ->
  (forall a, taking (q_head V s) p a -> taking (q_head V s) (q_pc V s t) a) -> J B n tr (qown s) (qguard (goto V s t p)).
Proof. intros HJ H1 H2 H3. apply (J_guards B n tr (qown s) (qguard s)); [exact HJ|]. intros l g HG. left. exact (goto_guard s t p l g H1 H2 H3 HG). Qed.

Lemma J_goto' B n tr s t p : JJ B n tr s ->
  (forall a, private p = Some a -> private (q_pc V s t) = Some a) ->
  (forall a, private (q_pc V s t) = Some a -> private p = Some a) ->
  (forall a, taking (q_head V s) p a -> taking (q_head V s) (q_pc V s t) a) -> JJ B n tr (goto V s t p).
Proof. exact (J_goto B n tr s t p). Qed.

Section Step.
Variables (B n t : nat) (s : qst) (ns : list (nat * V)) (h : nat) (tr0 : list (nat * ev V)) (tr : trace qloc).
Hypotheses (I : Inv s ns h tr0) (HJ : JJ B n tr s) (HY : young s B tr) (HN : t <= n).

Ltac gg EP := first [assumption|idtac]; try rewrite EP; cbn; intros; try discriminate; try contradiction; try tauto; auto.

Lemma acc_tail a own G : (own = qown s) -> (G = qguard s) -> in_tail (q_pc V s t) = true -> J B n tr own G -> J B n (tr ++ [(t, Acc a QTail)]) own G.
Proof. intros -> -> HT H. apply J_acc; auto; [exists (GMutex tail_mutex); reflexivity|]. intros g ->. exact (own_tm s ns h tr0 t I HT). Qed.

Lemma tail_below : q_tail V s < q_fresh V s.
Proof. apply (i_fresh _ _ _ _ I). unfold addrs. apply in_or_app. right. left. reflexivity. Qed.
Lemma h_below : h < q_fresh V s.
Proof.
  apply (i_fresh _ _ _ _ I). unfold addrs. assert (C := i_chain _ _ _ _ I). destruct ns as [|[a v] r]; cbn in C; [subst h; left; reflexivity|].
  destruct C as [-> _]. left. reflexivity.
Qed.

Lemma case_call l s' c : q_pc V s t = Idle V -> step V s t c = Some (l, Done V s') -> JJ B n (tr ++ map (pair t) (q_accesses V s t c)) s'.
Proof.
  intros EP HS. unfold step in HS. unfold q_accesses. rewrite EP in *. destruct c as [|o|w| |]; try discriminate. destruct o as [v| | |]; injection HS as _ <-; cbn [map].
  - set (a := q_fresh V s). set (s' := goto V (alloc V s) t (PLock V a v)).
    assert (U : forall l, node_of l = Some a -> unseen B tr l).
    { intros l0 E p u x Hp F. specialize (HY p u x l0 a Hp F E). unfold a in HY. lia. }
    assert (NP : forall u, private (q_pc V s u) <> Some a).
    { intros u E. destruct (i_priv _ _ _ _ I u a E) as (Hl & _). unfold a in Hl. lia. }
    assert (ND : forall b g, node_guard s' b g -> b <> a -> node_guard s b g).
    { intros b g [[-> [HL HP]]|(u & -> & H)] Hb.
      - left. split; [reflexivity|]. split.
        + cbn in HL. unfold upd in HL. destruct (Nat.eqb_spec b (q_fresh V s)); [contradiction|exact HL].
        + intros u E. specialize (HP u). unfold s' in HP. rewrite goto_pc in HP. destruct (Nat.eqb_spec u t) as [E0|E0]; [subst u; rewrite EP in E; discriminate|contradiction].
      - right. exists u. split; [reflexivity|]. unfold s' in H. rewrite goto_pc in H. destruct (Nat.eqb_spec u t) as [E0|E0]; [|exact H].
        cbn in H. destruct H as [H|[]]. congruence. }
    assert (NA : forall g, node_guard s' a g -> g = GThread t).
    { intros g [[-> [HL HP]]|(u & -> & H)].
      - exfalso. apply (HP t). unfold s'. rewrite goto_pc, Nat.eqb_refl. reflexivity.
      - unfold s' in H. rewrite goto_pc in H. destruct (Nat.eqb_spec u t) as [E0|E0]; [congruence|]. exfalso. destruct H as [H|H]; [exact (NP u H)|].
        destruct (taking_in s ns h tr0 u a I H) as (E & _). assert (Hb := h_below). unfold a in E. lia. }
    assert (NT : node_guard s' a (GThread t)).
    { right. exists t. split; [reflexivity|]. left. unfold s'. rewrite goto_pc, Nat.eqb_refl. reflexivity. }
    assert (J1 : J B n tr (qown s') (qguard s')).
    { apply (J_guards B n tr _ (qguard s)); [exact HJ|]. intros l0 g HG.
      assert (CASE : forall b, node_guard s' b g -> node_of l0 = Some b -> node_guard s b g \/ unseen B tr l0).
      { intros b Hb E. destruct (Nat.eq_dec b a) as [->|Hn]; [right; apply U, E|left; apply ND; assumption]. }
      destruct l0 as [| |b|b]; cbn in HG |- *; [left; exact HG|left; exact HG| |]; (destruct (CASE b HG eq_refl) as [Hc|Hc]; [left; exact Hc|right; left; exact Hc]). }
    apply J_app2. apply J_acc; [apply J_acc; [exact J1|exact HN|exists (GThread t); exact NT|]|exact HN|exists (GThread t); exact NT|]; intros g Hg; rewrite (NA g Hg); reflexivity.
  - rewrite app_nil_r. apply J_goto'; gg EP.
  - rewrite app_nil_r. apply J_goto'; gg EP.
  - rewrite app_nil_r. apply J_goto'; gg EP.
Qed.

Lemma own_lock m : forall (own : nat -> option nat) x i, own i = own i -> set_own own m x i = if i =? m then x else own i.
Proof. reflexivity. Qed.

Lemma case_lock_tail p : is_none (q_tm V s) = true -> J B n tr (qown s) (qguard (goto V s t p)) -> JJ B n (tr ++ [(t, Lock tail_mutex)]) (goto V (set_tm V s (Some t)) t p).
Proof.
  intros HM H. apply (J_lock B n tr (qown s)); [exact H|unfold qown; cbn; destruct (q_tm V s); [discriminate|reflexivity]|].
  intros i. unfold set_own, qown, tail_mutex. destruct i as [|[|]]; reflexivity.
Qed.
Lemma case_lock_head p : is_none (q_hm V s) = true -> J B n tr (qown s) (qguard (goto V s t p)) -> JJ B n (tr ++ [(t, Lock head_mutex)]) (goto V (set_hm V s (Some t)) t p).
Proof.
  intros HM H. apply (J_lock B n tr (qown s)); [exact H|unfold qown; cbn; destruct (q_hm V s); [discriminate|reflexivity]|].
  intros i. unfold set_own, qown, head_mutex. destruct i as [|[|]]; reflexivity.
Qed.
Lemma case_unlock_tail p : in_tail (q_pc V s t) = true -> J B n tr (qown s) (qguard (goto V s t p)) -> JJ B n (tr ++ [(t, Unlock tail_mutex)]) (goto V (set_tm V s None) t p).
Proof.
  intros HM H. apply (J_unlock B n tr (qown s)); [exact H|exact (own_tm s ns h tr0 t I HM)|].
  intros i. unfold set_own, qown, tail_mutex. destruct i as [|[|]]; reflexivity.
Qed.
Lemma case_unlock_head (tr1 : trace qloc) p w : in_head (q_pc V s t) = true -> J B n tr1 (qown s) (qguard (goto V s t p)) ->
  JJ B n (tr1 ++ [(t, Unlock head_mutex)]) (goto V (set_hm V (set_wait V s w) None) t p).
Proof.
  intros HM H. apply (J_unlock B n tr1 (qown s)); [exact H|exact (own_hm s ns h tr0 t I HM)|].
  intros i. unfold set_own, qown, head_mutex. destruct i as [|[|]]; reflexivity.
Qed.

(** writing a field of the last node *)
Lemma heap_guard (p : pc) x nd l g : q_heap V s x <> None -> 
  (forall a, private p = Some a -> private (q_pc V s t) = Some a) ->
  (forall a, private (q_pc V s t) = Some a -> private p = Some a) ->
  (forall a, taking (q_head V s) p a -> taking (q_head V s) (q_pc V s t) a) ->
  qguard (goto V (set_heap V s x (Some nd)) t p) l g -> qguard s l g.
Proof.
  intros HX H1 H2 H3 HG. apply (goto_guard s t p l g H1 H2 H3).
  assert (N : forall a, node_guard (goto V (set_heap V s x (Some nd)) t p) a g -> node_guard (goto V s t p) a g).
  { intros a [[-> [HL HP]]|H]; [left|right; exact H]. split; [reflexivity|]. split; [|exact HP]. cbn in *. unfold upd in HL. destruct (Nat.eqb_spec a x); [congruence|exact HL]. }
  destruct l; cbn in *; auto.
Qed.
Lemma acc_last a l s' : in_tail (q_pc V s t) = true -> node_of l = Some (q_tail V s) -> qown s' = qown s -> (forall g, qguard s' l g -> qguard s l g) ->
  (exists g, qguard s' l g) -> forall tr1, J B n tr1 (qown s') (qguard s') -> J B n (tr1 ++ [(t, Acc a l)]) (qown s') (qguard s').
Proof.
  intros HT HL HO HS HE tr1 H. apply J_acc; auto. intros g Hg. rewrite HO. apply HS in Hg.
  assert (g = GMutex tail_mutex) as ->.
  { destruct l; try discriminate; injection HL as ->; exact (tail_guard s ns h tr0 g I Hg). }
  exact (own_tm s ns h tr0 t I HT).
Qed.

Lemma case_push l s' c : step_push V s t (q_pc V s t) c = Some (l, Done V s') -> q_pc V s t <> Idle V -> JJ B n (tr ++ map (pair t) (q_accesses V s t c)) s'.
Proof.
  intros HS NI. unfold q_accesses.
  destruct (q_pc V s t) as [|a v|a v|a v|a v| | |k|k f|k f|k f tl|k f tl|k|k f|k|k old|k r|old] eqn:EP; cbn [step_push] in HS; try discriminate; try contradiction;
    destruct c as [|o|w| |]; try discriminate.
  - (* lock *) destruct (is_none (q_tm V s)) eqn:EM; [|discriminate]. injection HS as _ <-. apply case_lock_tail; [exact EM|]. apply J_goto; gg EP.
  - (* data *) destruct (q_heap V s (q_tail V s)) as [nd|] eqn:EH; [|discriminate]. injection HS as _ <-.
    set (s' := goto V (set_heap V s (q_tail V s) (Some (mkNode V (Some v) (n_next V nd)))) t (PNext V a v)).
    assert (GG : forall l g, qguard s' l g -> qguard s l g) by (intros l0 g; apply heap_guard; [congruence|gg EP|gg EP|gg EP]).
    assert (J1 : J B n tr (qown s') (qguard s')) by (apply (J_guards B n tr (qown s) (qguard s)); [exact HJ|intros l0 g Hg; left; apply GG, Hg]).
    apply J_app2. apply acc_last; try reflexivity; [rewrite EP; reflexivity|intros g; apply GG| |].
    + exists (GMutex tail_mutex). left. split; [reflexivity|]. destruct (tail_linked s ns h tr0 I) as [T1 T2]. split; [cbn; unfold upd; rewrite Nat.eqb_refl; discriminate|].
      intros u E. unfold s' in E. rewrite goto_pc in E. destruct (Nat.eqb_spec u t) as [E0|E0]; [|exact (T2 u E)]. apply (T2 t). rewrite EP. exact E.
    + apply J_acc; [exact J1|exact HN|exists (GMutex tail_mutex); reflexivity|]. intros g ->. apply (own_tm s ns h tr0 t I). rewrite EP. reflexivity.
  - (* next *) destruct (q_heap V s (q_tail V s)) as [nd|] eqn:EH; [|discriminate]. injection HS as _ <-.
    set (s' := goto V (set_heap V s (q_tail V s) (Some (mkNode V (n_data V nd) (Some a)))) t (PTail V a v)).
    assert (GG : forall l g, qguard s' l g -> qguard s l g) by (intros l0 g; apply heap_guard; [congruence|gg EP|gg EP|gg EP]).
    assert (J1 : J B n tr (qown s') (qguard s')) by (apply (J_guards B n tr (qown s) (qguard s)); [exact HJ|intros l0 g Hg; left; apply GG, Hg]).
    assert (EX : exists g, qguard s' (QNext (q_tail V s)) g).
    { exists (GMutex tail_mutex). left. split; [reflexivity|]. destruct (tail_linked s ns h tr0 I) as [T1 T2]. split; [cbn; unfold upd; rewrite Nat.eqb_refl; discriminate|].
      intros u E. unfold s' in E. rewrite goto_pc in E. destruct (Nat.eqb_spec u t) as [E0|E0]; [|exact (T2 u E)]. apply (T2 t). rewrite EP. exact E. }
    apply J_app3. apply acc_last; try reflexivity; [rewrite EP; reflexivity|intros g; apply GG|exact EX|].
    apply acc_last; try reflexivity; [rewrite EP; reflexivity|intros g; apply GG|exact EX|].
    apply J_acc; [exact J1|exact HN|exists (GMutex tail_mutex); reflexivity|]. intros g ->. apply (own_tm s ns h tr0 t I). rewrite EP. reflexivity.
  - (* tail *) injection HS as _ <-. set (s' := goto V (set_tail V s a) t (PUnlock V)).
    assert (OW : qown s tail_mutex = Some t) by (apply (own_tm s ns h tr0 t I); rewrite EP; reflexivity).
    assert (PA : private (q_pc V s t) = Some a) by (rewrite EP; reflexivity).
    assert (ND : forall b g, node_guard s' b g -> node_guard s b g \/ exists g0 u, node_guard s b g0 /\ held (qown s) g0 u /\ held (qown s) g u).
    { intros b g [[-> [HL HP]]|(u & -> & H)].
      - destruct (Nat.eq_dec b a) as [->|Hn].
        + right. exists (GThread t), t. split; [right; exists t; split; [reflexivity|left; exact PA]|]. split; [reflexivity|exact OW].
        + left. left. split; [reflexivity|]. split; [exact HL|]. intros u E. specialize (HP u). unfold s' in HP. rewrite goto_pc in HP.
          destruct (Nat.eqb_spec u t) as [E0|E0]; [subst u; congruence|contradiction].
      - left. right. exists u. split; [reflexivity|]. unfold s' in H. rewrite goto_pc in H. destruct (Nat.eqb_spec u t) as [E0|E0]; [|exact H]. cbn in H. destruct H as [H|[]]; discriminate. }
    assert (J1 : J B n tr (qown s') (qguard s')).
    { apply (J_guards B n tr (qown s) (qguard s)); [exact HJ|]. intros l0 g HG. destruct l0 as [| |b|b]; cbn in HG |- *; [left; exact HG|left; exact HG| |];
        (destruct (ND b g HG) as [H|H]; [left; exact H|right; right; exact H]). }
    cbn [map]. apply J_acc; [exact J1|exact HN|exists (GMutex tail_mutex); reflexivity|]. intros g ->. exact OW.
  - (* unlock *) injection HS as _ <-. apply case_unlock_tail; [rewrite EP; reflexivity|]. apply J_goto; gg EP.
  - (* notify, nobody there *) destruct (q_wait V s); [|discriminate]. injection HS as _ <-. cbn [map]. rewrite app_nil_r. apply J_goto'; gg EP.
  - (* notify w *) destruct (existsb _ _); [|discriminate]. destruct (q_pc V s w) eqn:EW; try discriminate. injection HS as _ <-. cbn [map]. rewrite app_nil_r.
    assert (WT : w <> t) by (intros ->; congruence).
    apply (J_goto' B n tr (goto V (set_wait V s (remove Nat.eq_dec w (q_wait V s))) w (CRelock V k PhLoop))).
    + apply (J_goto' B n tr (set_wait V s (remove Nat.eq_dec w (q_wait V s)))); [exact HJ|..]; cbn; rewrite EW; cbn; intros; try discriminate; contradiction.
    + cbn. discriminate.
    + rewrite goto_pc. destruct (Nat.eqb_spec t w); [congruence|]. cbn. rewrite EP. discriminate.
    + cbn. intros ? [].
Qed.

(** reading the head under its mutex *)
Lemma acc_head a s' tr1 : in_head (q_pc V s t) = true -> qown s' = qown s -> J B n tr1 (qown s') (qguard s') -> J B n (tr1 ++ [(t, Acc a QHead)]) (qown s') (qguard s').
Proof.
  intros HT HO H. apply J_acc; auto; [exists (GMutex head_mutex); reflexivity|]. intros g ->. rewrite HO. exact (own_hm s ns h tr0 t I HT).
Qed.

Lemma case_cons l s' c : step_cons V s t (q_pc V s t) c = Some (l, Done V s') -> q_pc V s t <> Idle V -> JJ B n (tr ++ map (pair t) (q_accesses V s t c)) s'.
Proof.
  intros HS NI. unfold q_accesses.
  destruct (q_pc V s t) as [|a v|a v|a v|a v| | |k|k f|k f|k f tl|k f tl|k|k f|k|k old|k r|old] eqn:EP; cbn [step_cons] in HS; try discriminate; try contradiction;
    destruct c as [|o|w| |]; try discriminate; try (destruct k; discriminate); try (destruct r; discriminate).
  - destruct (is_none (q_hm V s)) eqn:EM; [|discriminate]. injection HS as _ <-. apply case_lock_head; [exact EM|]. apply J_goto; gg EP.
  - destruct (is_none (q_tm V s)) eqn:EM; [|discriminate]. injection HS as _ <-. apply case_lock_tail; [exact EM|]. apply J_goto; gg EP.
  - (* read the tail: the head node, if it is not the last, is now known *)
    injection HS as _ <-. cbn [map]. set (s' := goto V s t (CRel V k f (q_tail V s))).
    assert (OW : qown s tail_mutex = Some t) by (apply (own_tm s ns h tr0 t I); rewrite EP; reflexivity).
    assert (ND : forall b g, node_guard s' b g -> node_guard s b g \/ exists g0 u, node_guard s b g0 /\ held (qown s) g0 u /\ held (qown s) g u).
    { intros b g [[-> [HL HP]]|(u & -> & H)].
      - left. left. split; [reflexivity|]. split; [exact HL|]. intros u E. specialize (HP u). unfold s' in HP. rewrite goto_pc in HP.
        destruct (Nat.eqb_spec u t) as [E0|E0]; [subst u; rewrite EP in E; discriminate|contradiction].
      - unfold s' in H. rewrite goto_pc in H. destruct (Nat.eqb_spec u t) as [E0|E0].
        + subst u. cbn in H. destruct H as [H|[H _]]; [discriminate|]. right. exists (GMutex tail_mutex), t. split; [|split; [exact OW|reflexivity]].
          left. split; [reflexivity|]. assert (b = h) as -> by (destruct (i_head _ _ _ _ I) as [[E' _]|[E' _]]; congruence). exact (head_linked s ns h tr0 I).
        + left. right. exists u. split; [reflexivity|exact H]. }
    apply J_acc; [|exact HN|exists (GMutex tail_mutex); reflexivity|intros g ->; exact OW].
    apply (J_guards B n tr (qown s) (qguard s)); [exact HJ|]. intros l0 g HG. destruct l0 as [| |b|b]; cbn in HG |- *; [left; exact HG|left; exact HG| |];
        (destruct (ND b g HG) as [H|H]; [left; exact H|right; right; exact H]).
  - injection HS as _ <-. apply case_unlock_tail; [rewrite EP; reflexivity|]. apply J_goto; gg EP.
  - (* compare *)
    assert (IH : in_head (q_pc V s t) = true) by (rewrite EP; reflexivity).
    assert (SLEEP : forall q, private q = None -> (forall a, ~ taking (q_head V s) q a) ->
              JJ B n (tr ++ map (pair t) [Acc Rd QHead; Unlock head_mutex]) (goto V (set_hm V (set_wait V s (t :: q_wait V s)) None) t q)).
    { intros q Q1 Q2. apply J_app2. apply case_unlock_head; [exact IH|]. apply (acc_head Rd (goto V s t q)); [exact IH|reflexivity|].
      apply J_goto'; [exact HJ|rewrite Q1; discriminate|rewrite EP; discriminate|]. intros a Ha. exfalso. exact (Q2 a Ha). }
    assert (STAY : forall q, private q = None -> (forall a, taking (q_head V s) q a -> taking (q_head V s) (CCmp V k f tl) a) ->
              JJ B n (tr ++ map (pair t) [Acc Rd QHead]) (goto V s t q)).
    { intros q Q1 Q2. apply (acc_head Rd (goto V s t q)); [exact IH|reflexivity|].
      apply J_goto'; [exact HJ|rewrite Q1; discriminate|rewrite EP; discriminate|rewrite EP; exact Q2]. }
    assert (POP : head_is V s tl = false -> forall a, taking (q_head V s) (CPop1 V k) a -> taking (q_head V s) (CCmp V k f tl) a).
    { intros E a Ha. cbn in *. split; [exact Ha|]. unfold head_is in E. rewrite Ha in E. apply Nat.eqb_neq in E. exact E. }
    destruct (head_is V s tl) eqn:EE; destruct k, f; cbn [after_test] in HS; injection HS as _ <-; cbn [goes_to_sleep];
      first [apply SLEEP; [reflexivity|intros ? []] | apply STAY; [reflexivity|first [exact (POP eq_refl)|intros ? []]]].
  - (* spurious wake-up *)
    assert (E : s' = goto V (set_wait V s (remove Nat.eq_dec t (q_wait V s))) t (CRelock V k PhLoop)) by (destruct k; injection HS as _ <-; reflexivity).
    subst s'. cbn [map]. rewrite app_nil_r. apply (J_goto' B n tr (set_wait V s (remove Nat.eq_dec t (q_wait V s)))); [exact HJ|..]; cbn; gg EP.
  - (* deadline *) destruct k; try discriminate. injection HS as _ <-. cbn [map]. rewrite app_nil_r.
    apply (J_goto' B n tr (set_wait V s (remove Nat.eq_dec t (q_wait V s)))); [exact HJ|..]; cbn; gg EP.
  - destruct (is_none (q_hm V s)) eqn:EM; [|discriminate]. injection HS as _ <-. apply case_lock_head; [exact EM|]. apply J_goto; gg EP.
  - (* take the head *)
    destruct (q_head V s) as [h0|] eqn:EH; [|discriminate]. injection HS as _ <-.
    assert (IH : in_head (q_pc V s t) = true) by (rewrite EP; reflexivity).
    set (s' := goto V (set_head V s None) t (CPop2 V k h0)).
    assert (ND : forall b g, node_guard s' b g -> node_guard s b g).
    { intros b g [[-> [HL HP]]|(u & -> & H)].
      - left. split; [reflexivity|]. split; [exact HL|]. intros u E. specialize (HP u). unfold s' in HP. rewrite goto_pc in HP.
        destruct (Nat.eqb_spec u t) as [E0|E0]; [subst u; rewrite EP in E; discriminate|contradiction].
      - right. exists u. split; [reflexivity|]. unfold s' in H. rewrite goto_pc in H. destruct (Nat.eqb_spec u t) as [E0|E0].
        + subst u. cbn in H. destruct H as [H|H]; [discriminate|]. right. rewrite EP. cbn. congruence.
        + destruct H as [H|H]; [left; exact H|]. exfalso. cbn in H.
          assert (IU : in_head (q_pc V s u) = true) by (destruct (q_pc V s u); cbn in H; try contradiction; reflexivity).
          apply E0. exact (hm_unique s ns h tr0 t u I IH IU). }
    apply J_app2. apply (acc_head Wr s'); [exact IH|reflexivity|]. apply (acc_head Rd s'); [exact IH|reflexivity|].
    apply (J_guards B n tr (qown s) (qguard s)); [exact HJ|]. intros l0 g HG. left. destruct l0 as [| |b|b]; cbn in HG |- *; auto.
  - (* advance *)
    destruct (q_heap V s old) as [nd|] eqn:EH; [|discriminate]. injection HS as _ <-.
    assert (IH : in_head (q_pc V s t) = true) by (rewrite EP; reflexivity).
    set (s' := goto V (set_heap V (set_head V s (n_next V nd)) old (Some (mkNode V (n_data V nd) None))) t (CUnl V k (inl old))).
    assert (IU : forall hd u b, u <> t -> taking hd (q_pc V s u) b -> False).
    { intros hd u b E0 H. apply E0. apply (hm_unique s ns h tr0 t u I IH). destruct (q_pc V s u); cbn in H; try contradiction; reflexivity. }
    assert (OH : old = h).
    { destruct (taking_in s ns h tr0 t old I) as (E & _); [rewrite EP; reflexivity|exact E]. }
    assert (ND : forall b g, node_guard s' b g -> node_guard s b g).
    { intros b g [[-> [HL HP]]|(u & -> & H)].
      - left. split; [reflexivity|]. split.
        + cbn in HL. unfold upd in HL. destruct (Nat.eqb_spec b old); [congruence|exact HL].
        + intros u E. specialize (HP u). unfold s' in HP. rewrite goto_pc in HP. destruct (Nat.eqb_spec u t) as [E0|E0]; [subst u; rewrite EP in E; discriminate|contradiction].
      - right. exists u. split; [reflexivity|]. unfold s' in H. rewrite goto_pc in H. destruct (Nat.eqb_spec u t) as [E0|E0].
        + subst u. cbn in H. destruct H as [H|[]]. injection H as <-. right. rewrite EP. reflexivity.
        + destruct H as [H|H]; [left; exact H|]. exfalso. exact (IU _ u b E0 H). }
    assert (NA : forall g, node_guard s' old g -> g = GThread t).
    { intros g [[-> [HL HP]]|(u & -> & H)].
      - exfalso. apply (HP t). unfold s'. rewrite goto_pc, Nat.eqb_refl. reflexivity.
      - unfold s' in H. rewrite goto_pc in H. destruct (Nat.eqb_spec u t) as [E0|E0]; [congruence|]. exfalso. destruct H as [H|H]; [|exact (IU _ u old E0 H)].
        rewrite OH in H. exact (proj2 (head_linked s ns h tr0 I) u H). }
    assert (NT : node_guard s' old (GThread t)).
    { right. exists t. split; [reflexivity|]. left. unfold s'. rewrite goto_pc, Nat.eqb_refl. reflexivity. }
    apply J_app4. apply (acc_head Wr s'); [exact IH|reflexivity|]. apply (acc_head Rd s'); [exact IH|reflexivity|].
    apply J_acc; [apply J_acc; [|exact HN|exists (GThread t); exact NT|]|exact HN|exists (GThread t); exact NT|]; try (intros g Hg; rewrite (NA g Hg); reflexivity).
    apply (J_guards B n tr (qown s) (qguard s)); [exact HJ|]. intros l0 g HG. left. destruct l0 as [| |b|b]; cbn in HG |- *; auto.
  - (* unlock *)
    assert (IH : in_head (q_pc V s t) = true) by (rewrite EP; reflexivity).
    destruct r as [old|r]; injection HS as _ <-; cbn [map].
    + apply (case_unlock_head tr (CData V old) (q_wait V s)); [exact IH|]. apply J_goto; gg EP.
    + apply (case_unlock_head tr (Idle V) (q_wait V s)); [exact IH|]. apply J_goto; gg EP.
  - (* free *)
    destruct (q_heap V s old) as [nd|] eqn:EH; [|discriminate]. injection HS as _ <-.
    assert (PA : private (q_pc V s t) = Some old) by (rewrite EP; reflexivity).
    assert (NA : forall g, node_guard s old g -> g = GThread t).
    { intros g [[-> [HL HP]]|(u & -> & H)]; [exfalso; exact (HP t PA)|]. destruct H as [H|H].
      - rewrite (i_dist _ _ _ _ I u t old H PA). reflexivity.
      - exfalso. destruct (taking_in s ns h tr0 u old I H) as (E & _). rewrite E in PA. exact (proj2 (head_linked s ns h tr0 I) t PA). }
    assert (NT : node_guard s old (GThread t)) by (right; exists t; split; [reflexivity|left; exact PA]).
    set (s' := goto V (set_heap V s old None) t (Idle V)).
    apply (J_guards B n _ (qown s) (qguard s)).
    + apply J_app4. repeat (apply J_acc; [|exact HN|exists (GThread t); exact NT|intros g Hg; rewrite (NA g Hg); reflexivity]). exact HJ.
    + intros l0 g HG. left.
      assert (ND : forall b, node_guard s' b g -> node_guard s b g).
      { intros b [[-> [HL HP]]|(u & -> & H)].
        - left. split; [reflexivity|]. cbn in HL. unfold upd in HL. destruct (Nat.eqb_spec b old) as [E0|E0]; [contradiction|]. split; [exact HL|].
          intros u E. specialize (HP u). unfold s' in HP. rewrite goto_pc in HP. destruct (Nat.eqb_spec u t) as [E1|E1]; [subst u; congruence|contradiction].
        - right. exists u. split; [reflexivity|]. unfold s' in H. rewrite goto_pc in H. destruct (Nat.eqb_spec u t) as [E0|E0]; [|exact H]. cbn in H. destruct H as [H|[]]; discriminate. }
      destruct l0 as [| |b|b]; cbn in HG |- *; auto.
Qed.
End Step.
End P.
