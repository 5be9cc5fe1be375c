(** Accounting of stimuli, log entries and exceptions in the parallel flow. *)
From Coq Require Import String List Bool NArith QArith Arith Lia Permutation.
From Verif Require Import Criterion Config SeqFlow SeqSpec SeqProofs ParFlow ParSpec ParProofs ParProofs2 ParProofs3.
Import ListNotations.
Local Open Scope list_scope.

Lemma flat_map_flip {A} (f h : nat -> list A) i (l : list nat) :
  NoDup l -> In i l -> (forall j, j <> i -> f j = h j) ->
  Permutation (flat_map f l ++ h i) (flat_map h l ++ f i).
Proof.
  intros ND HI E. induction l as [|a l IH]; [contradiction|]. inversion ND as [|? ? Hn ND']; subst.
  cbn [flat_map]. destruct (Nat.eq_dec a i) as [->|Na].
  - assert (flat_map f l = flat_map h l) as ->.
    { rewrite !flat_map_concat_map. f_equal. apply map_ext_in. intros b Hb. apply E. intros ->. contradiction. }
    rewrite <- !app_assoc.
    rewrite (Permutation_app_comm (flat_map h l) (h i)). rewrite app_assoc. 
    rewrite (Permutation_app_comm (flat_map h l) (f i)). rewrite app_assoc.
    apply Permutation_app_tail. apply Permutation_app_comm.
  - destruct HI as [?|HI]; [contradiction|]. rewrite (E a Na). rewrite <- !app_assoc. apply Permutation_app_head. auto.
Qed.

Section Proofs.
Context {Stim Gen : Type}.
Notation env := (env Stim Gen).
Notation pst := (pst Stim Gen).
Notation slot := (slot Stim).
Notation entry := (kind * criterion * option Stim)%type.
Implicit Types (e : env) (s : pst) (c : config) (x : slot) (g : Gen).

Ltac simp := cbn [set_main set_next set_pres set_slot set_queue set_pgen add_log begin_signal set_pdone
   p_cfg p_slots p_queue p_done p_main p_next p_res p_gen p_log phase_signal] in *.

(** *** stimuli *)
Definition olist {A} (o : option A) : list A := match o with Some a => [a] | None => [] end.
Definition chk_stim x : list Stim := match sl_chk x with Some ck => olist (k_stim ck) | None => [] end.
Definition pending s i x : bool :=
  match sl_w x with WRead | WRun | WPush => true | WIdle => existsb (Nat.eqb i) (p_queue s) | _ => false end.
Definition pend_at s i : list Stim :=
  match nth_error (p_slots s) i with Some x => if pending s i x then chk_stim x else [] | None => [] end.
Definition pend s : list Stim := flat_map (pend_at s) (seq 0 (length (p_slots s))).
Definition log_stims (log : list entry) : list Stim := flat_map (fun en : entry => olist (snd en)) log.
Definition unwinding (m : mpc) : bool := match m with MUnwind | MThrown | MTerminated => true | _ => false end.

Record StimInv e g s : Prop := mkSI {
  si_log : forall k q st, In (k, q, st) (p_log s) -> k <> KSim -> st = None;
  si_nostim : forall i x ck, nth_error (p_slots s) i = Some x -> sl_chk x = Some ck -> k_kind ck <> KSim -> k_stim ck = None;
  si_draws : exists l, draws e g l (p_gen s) /\
     if unwinding (p_main s) then exists rest, Permutation l (log_stims (p_log s) ++ rest)
     else Permutation l (log_stims (p_log s) ++ pend s) }.

Lemma pend_flip s s' i x : length (p_slots s') = length (p_slots s) -> nth_error (p_slots s) i = Some x ->
  (forall j, j <> i -> pend_at s j = pend_at s' j) ->
  Permutation (pend s ++ pend_at s' i) (pend s' ++ pend_at s i).
Proof.
  intros HL Hx HE. unfold pend. rewrite HL. apply flat_map_flip; auto.
  - apply seq_NoDup.
  - apply in_seq. assert (i < length (p_slots s))%nat by (apply nth_error_Some; congruence). lia.
Qed.

Lemma pend_ext s s' : length (p_slots s') = length (p_slots s) -> (forall j, pend_at s' j = pend_at s j) -> pend s' = pend s.
Proof. intros HL HE. unfold pend. rewrite HL. rewrite !flat_map_concat_map. f_equal. apply map_ext. auto. Qed.

Lemma perm_drop {A} (a b l : list A) : Permutation (a ++ l) (b ++ l) -> Permutation a b.
Proof. intros H. rewrite (Permutation_app_comm a l), (Permutation_app_comm b l) in H. now apply Permutation_app_inv_l in H. Qed.

Lemma pend_other s i x' q j : j <> i -> (existsb (Nat.eqb j) q = existsb (Nat.eqb j) (p_queue s)) ->
  pend_at (set_queue q (set_slot i x' s)) j = pend_at s j.
Proof.
  intros Hj Hq. unfold pend_at. simp. rewrite upd_other by auto.
  destruct (nth_error (p_slots s) j) as [y|]; [|reflexivity]. unfold pending. simp. now rewrite Hq.
Qed.

(** an update of slot [i] that keeps its contribution *)
Lemma pend_keep s i x x' q : nth_error (p_slots s) i = Some x ->
  (forall j, j <> i -> existsb (Nat.eqb j) q = existsb (Nat.eqb j) (p_queue s)) ->
  pend_at (set_queue q (set_slot i x' s)) i = pend_at s i ->
  pend (set_queue q (set_slot i x' s)) = pend s.
Proof.
  intros Hx Hq Hi. apply pend_ext; [simp; apply upd_length|].
  intros j. destruct (Nat.eq_dec j i) as [->|Hj]; [assumption|]. apply pend_other; auto.
Qed.

Lemma set_queue_same s i x' : set_queue (p_queue s) (set_slot i x' s) = set_slot i x' s.
Proof. reflexivity. Qed.
Lemma pend_at_slot s i x x' q : nth_error (p_slots s) i = Some x ->
  pend_at (set_queue q (set_slot i x' s)) i =
  if match sl_w x' with WRead | WRun | WPush => true | WIdle => existsb (Nat.eqb i) q | _ => false end then chk_stim x' else [].
Proof. intros Hx. unfold pend_at. simp. rewrite (upd_same _ _ _ _ Hx). reflexivity. Qed.

Lemma stim_worker e ks g i s s' : Inv e ks s -> StimInv e g s -> worker_step e i s = Some s' -> StimInv e g s'.
Proof.
  intros HI [Hlg Hns (l & Hd & Hp)] H. unfold worker_step in H. destruct (live s) eqn:EL; cbn [negb] in H; [|discriminate].
  destruct (nth_error (p_slots s) i) as [x|] eqn:Ex; [|discriminate].
  assert (Keep : forall x' q, (forall j, j <> i -> existsb (Nat.eqb j) q = existsb (Nat.eqb j) (p_queue s)) ->
     (forall ck, sl_chk x' = Some ck -> k_kind ck <> KSim -> k_stim ck = None) ->
     (if match sl_w x' with WRead | WRun | WPush => true | WIdle => existsb (Nat.eqb i) q | _ => false end then chk_stim x' else [])
       = pend_at s i ->
     StimInv e g (set_queue q (set_slot i x' s))).
  { intros x' q Hq Hn' He. split; [exact Hlg| |].
    - simp. intros j y ck Hy Hc. apply upd_inv in Hy. destruct Hy as [(-> & -> & _)|(_ & Hy)]; [auto|eauto].
    - exists l. split; [exact Hd|]. simp.
      rewrite (pend_keep s i x x' q Ex Hq); [exact Hp|]. rewrite (pend_at_slot s i x x' q Ex). exact He. }
  assert (Hpa : pend_at s i = if pending s i x then chk_stim x else []) by (unfold pend_at; now rewrite Ex).
  assert (Hni : forall ck, sl_chk x = Some ck -> k_kind ck <> KSim -> k_stim ck = None) by (intros; eapply Hns; eauto).
  pose proof (inv_slots _ _ _ HI _ _ Ex) as [[_ (k & Hk & (A & _ & _ & D))]|[_ ->]]; [|discriminate].
  unfold pending in Hpa.
  destruct (sl_w x) as [|k'| | | |] eqn:Ew; try discriminate.
  - (* start *)
    destruct D as (-> & _ & _).
    destruct (sl_chk x) as [ck|] eqn:Eck.
    { injection H as <-. rewrite <- set_queue_same. apply Keep; auto.
      - unfold slot_w; cbn [sl_chk]. rewrite Eck. auto.
      - rewrite Hpa. unfold slot_w, chk_stim; cbn [sl_w sl_chk]. rewrite Eck. destruct k; auto;
        rewrite Hni by (auto; rewrite (A _ eq_refl); discriminate); reflexivity. }
    destruct (ctor_throws e (p_cfg s) k).
    { injection H as <-. rewrite <- set_queue_same. apply Keep; auto. }
    assert (HX : forall w, Some (set_slot i (mkSlot (Some (mkChecker k NoInformation (@None Stim))) false w false) s) = Some s' ->
               (w = WRead \/ w = WDraw) -> StimInv e g s').
    { intros w [= <-] Hw. rewrite <- set_queue_same. apply Keep; auto.
      - cbn [sl_chk]. intros ck [= <-] _. reflexivity.
      - cbn [sl_w]. rewrite Hpa. destruct Hw as [-> | ->]; reflexivity. }
    destruct k; try (eapply HX; [exact H|auto]).
    destruct (e_zx_perm_ok e); [eapply HX; [exact H|auto]|].
    injection H as <-. split; [exact Hlg|exact Hns|]. exists l. split; [exact Hd|]. simp. cbn [unwinding].
    destruct (unwinding (p_main s)); eauto.
  - (* draw *)
    destruct D as (-> & Dc & _ & _).
    destruct (e_gen e (p_gen s)) as [[stm g']|] eqn:Eg; [|discriminate].
    destruct (sl_chk x) as [ck|] eqn:Eck; [|discriminate]. injection H as <-.
    assert (Ek := A _ eq_refl).
    split; [exact Hlg| |].
    + simp. intros j y ck' Hy Hc. apply upd_inv in Hy. destruct Hy as [(-> & -> & _)|(_ & Hy)]; [|eauto].
      cbn in Hc. injection Hc as <-. cbn. congruence.
    + exists (l ++ [stm]). split.
      { eapply draws_app; [exact Hd|]. simp. econstructor; [exact Eg|constructor]. }
      simp. set (x' := mkSlot _ _ _ _).
      pose proof (pend_flip s (set_slot i x' s) i x ltac:(simp; apply upd_length) Ex) as F.
      specialize (F ltac:(intros j Hj; rewrite <- set_queue_same; symmetry; apply pend_other; auto)).
      rewrite <- set_queue_same in F. rewrite (pend_at_slot s i x x' _ Ex), Hpa in F. cbn in F.
      rewrite app_nil_r, set_queue_same in F.
      destruct (unwinding (p_main s)).
      * destruct Hp as (rest & Hp). exists (rest ++ [stm]). rewrite app_assoc. now apply Permutation_app_tail.
      * assert (EP : pend (set_pgen g' (set_slot i x' s)) = pend (set_slot i x' s)) by (apply pend_ext; reflexivity).
        simp. rewrite EP, <- F, app_assoc. now apply Permutation_app_tail.
  - (* read *)
    injection H as <-. rewrite <- set_queue_same. apply Keep; auto.
    rewrite Hpa. unfold slot_w, chk_stim; cbn [sl_w sl_chk]. destruct (p_done s); reflexivity.
  - (* run *)
    destruct (sl_chk x) as [ck|] eqn:Eck; [|discriminate].
    assert (HX : Some (set_slot i (mkSlot (Some (mkChecker (k_kind ck) (natural e (k_kind ck) (k_stim ck)) (k_stim ck)))
                                      (sl_flag x) WPush (sl_exn x)) s) = Some s' -> StimInv e g s').
    { intros [= <-]. rewrite <- set_queue_same. apply Keep; auto.
      - cbn [sl_chk]. intros ck' [= <-]. cbn. apply Hni. reflexivity.
      - rewrite Hpa. unfold chk_stim. cbn [sl_w sl_chk]. rewrite Eck. reflexivity. }
    destruct (k_kind ck) eqn:Ekk; auto. destruct (e_canHandle e); auto.
    injection H as <-. rewrite <- set_queue_same. apply Keep; auto.
    rewrite Hpa. unfold chk_stim. cbn [sl_w sl_chk]. rewrite Eck. reflexivity.
  - (* push *)
    injection H as <-. apply Keep; auto.
    + intros j Hj. rewrite existsb_app. cbn. apply Nat.eqb_neq in Hj. rewrite Hj. now rewrite !orb_false_r.
    + rewrite Hpa. unfold slot_w, chk_stim. cbn [sl_w sl_chk]. rewrite existsb_app. cbn. rewrite Nat.eqb_refl.
      now rewrite orb_true_r.
Qed.

Lemma stim_abort e g i s s' : StimInv e g s -> abort_step i s = Some s' -> StimInv e g s'.
Proof.
  intros [Hlg Hns (l & Hd & Hp)] H. unfold abort_step in H. destruct (live s) eqn:EL; cbn [negb] in H; [|discriminate].
  destruct (nth_error (p_slots s) i) as [x|] eqn:Ex; [|discriminate].
  destruct (sl_w x) as [|k'| | | |] eqn:Ew; try discriminate.
  destruct (sl_chk x) as [ck|] eqn:Eck; [|discriminate]. destruct (sl_flag x); [|discriminate].
  injection H as <-. split; [exact Hlg| |].
  - simp. intros j y ck' Hy Hc. apply upd_inv in Hy. destruct Hy as [(-> & -> & _)|(_ & Hy)]; [|eauto].
    cbn in Hc. injection Hc as <-. cbn. eauto.
  - exists l. split; [exact Hd|]. rewrite <- set_queue_same. cbn [p_main set_queue set_slot p_log].
    match goal with |- context [pend (set_queue ?q (set_slot i ?y s))] =>
      rewrite (pend_keep s i x y q Ex); auto; rewrite (pend_at_slot s i x y q Ex) end. unfold pend_at. rewrite Ex. unfold pending, chk_stim. rewrite Ew, Eck. reflexivity.
Qed.

Lemma stim_main e ks g s s' : Inv e ks s -> StimInv e g s -> main_step s = Some s' -> StimInv e g s'.
Proof.
  intros HI [Hlg Hns (l & Hd & Hp)] H. pose proof HI as [HL HN HS HQ HND HD HM]. unfold main_step in H.
  destruct (p_main s) as [[|k rest]| | j | | | | | | |] eqn:EM; try discriminate; cbn [unwinding] in Hp.
  - injection H as <-. split; [exact Hlg|exact Hns|]. exists l. split; [exact Hd|]. simp. cbn [unwinding].
    rewrite (pend_ext s (set_main MLoop s)); auto.
  - destruct (nth_error (p_slots s) (p_next s)) as [x|] eqn:Ex.
    2:{ injection H as <-. split; [exact Hlg|exact Hns|]. exists l. split; [exact Hd|]. simp. cbn [unwinding].
        rewrite (pend_ext s (set_main MOutOfBounds s)); auto. }
    injection H as <-. split; [exact Hlg| |].
    { simp. intros j y ck' Hy Hc. apply upd_inv in Hy. destruct Hy as [(-> & -> & _)|(_ & Hy)]; [|eauto]. cbn in Hc. eauto. }
    exists l. split; [exact Hd|]. simp. cbn [unwinding].
    match goal with |- Permutation _ (_ ++ pend ?t) => set (s1 := t) end.
    replace (pend s1) with (pend (set_queue (p_queue s) (set_slot (p_next s) (mkSlot (sl_chk x) (sl_flag x) (WStart k) false) s)))
      by (symmetry; apply pend_ext; reflexivity).
    rewrite (pend_keep s (p_next s) x); auto.
    rewrite (pend_at_slot s _ x _ _ Ex). cbn [sl_w]. unfold pend_at. rewrite Ex. unfold pending.
    destruct (HS _ _ Ex) as [[? _]|[_ ->]]; [lia|]. cbn. destruct (existsb _ _); reflexivity.
  - destruct (p_queue s) as [|i q] eqn:EQ; [discriminate|].
    destruct (HQ i (or_introl eq_refl)) as (Hilt & x & Hx & Hw). rewrite Hx in H.
    unfold is_idle in H. rewrite Hw in H. cbn [negb] in H.
    inversion HND as [|? ? Hni HND']; subst.
    destruct (sl_exn x) eqn:Exn.
    { injection H as <-. split; [exact Hlg|exact Hns|]. exists l. split; [exact Hd|]. simp. cbn [unwinding]. eauto. }
    destruct (sl_chk x) as [ck|] eqn:Eck.
    2:{ exfalso. destruct (HS _ _ Hx) as [[_ (k & _ & (_ & _ & _ & D))]|[? _]]; [|lia].
        rewrite Hw in D. destruct D as [_ D]. destruct (D Exn) as (? & ? & _). congruence. }
    (* the slot leaves the pending set, its stimulus enters the log *)
    assert (Move : forall s1, length (p_slots s1) = length (p_slots s) -> p_queue s1 = q ->
        (forall j, j <> i -> nth_error (p_slots s1) j = nth_error (p_slots s) j) -> pend_at s1 i = [] ->
        Permutation (pend s) (olist (k_stim ck) ++ pend s1)).
    { intros s1 HL1 HQ1 Ho Hi. pose proof (pend_flip s s1 i x HL1 Hx) as F.
      rewrite Hi, app_nil_r in F. rewrite F.
      - assert (pend_at s i = olist (k_stim ck)) as ->; [|apply Permutation_app_comm].
        unfold pend_at. rewrite Hx. unfold pending, chk_stim. rewrite Hw, EQ, Eck. cbn. now rewrite Nat.eqb_refl.
      - intros j Hj. unfold pend_at. rewrite (Ho _ Hj). destruct (nth_error (p_slots s) j) as [y|]; [|reflexivity].
        unfold pending. rewrite HQ1, EQ. cbn [existsb]. apply Nat.eqb_neq in Hj. now rewrite Hj. }
    assert (Fin : forall s1, p_gen s1 = p_gen s -> p_log s1 = (k_kind ck, k_eq ck, k_stim ck) :: p_log s ->
        unwinding (p_main s1) = false -> Permutation (pend s) (olist (k_stim ck) ++ pend s1) ->
        exists l0, draws e g l0 (p_gen s1) /\
          (if unwinding (p_main s1) then exists rest, Permutation l0 (log_stims (p_log s1) ++ rest)
           else Permutation l0 (log_stims (p_log s1) ++ pend s1))).
    { intros s1 Eg El Eu HP. exists l. rewrite Eg, El, Eu. split; [exact Hd|]. cbn [log_stims flat_map].
      rewrite Hp. rewrite HP. unfold log_stims. rewrite !app_assoc. apply Permutation_app_tail. apply Permutation_app_comm. }
    assert (Hpi : forall s1, p_queue s1 = q -> nth_error (p_slots s1) i = Some x -> pend_at s1 i = []).
    { intros s1 E1 E2. unfold pend_at. rewrite E2. unfold pending. rewrite Hw, E1, existsb_notin; auto. }
    assert (Hlg' : forall k q0 st, In (k, q0, st) ((k_kind ck, k_eq ck, k_stim ck) :: p_log s) -> k <> KSim -> st = None).
    { intros k q0 st [E|E]; [|eauto]. injection E as <- <- <-. eauto. }
    destruct (handle (p_cfg s) (p_res s) (k_kind ck) (k_eq ck) (k_stim ck)) as [r|r|r] eqn:EH; injection H as <-.
    + split; [exact Hlg'|exact Hns|]. apply Fin; auto.
    + split; [exact Hlg'|exact Hns|]. apply Fin; auto; try (simp; rewrite EM; reflexivity); apply Move; auto.
    + split; [exact Hlg'| |].
      { simp. intros j y ck' Hy Hc. apply upd_inv in Hy. destruct Hy as [(-> & -> & _)|(_ & Hy)]; [|eauto]. cbn in Hc. eauto. }
      apply Fin; auto; try (simp; rewrite EM; reflexivity). apply Move; simp; auto.
      * apply upd_length.
      * intros j Hj. apply upd_other. auto.
      * unfold pend_at. simp. rewrite (upd_same _ _ _ _ Hx). reflexivity.
  - destruct (nth_error (p_slots s) j) as [x|] eqn:Ex; injection H as <-.
    + split; [exact Hlg| |].
      { simp. intros i y ck' Hy Hc. apply upd_inv in Hy. destruct Hy as [(-> & -> & _)|(_ & Hy)]; [|eauto].
        destruct (has_chk x); cbn in Hc; eauto. }
      exists l. split; [exact Hd|]. simp. cbn [unwinding].
      match goal with |- Permutation _ (_ ++ pend ?t) => set (s1 := t) end.
      replace (pend s1) with (pend s); [assumption|]. symmetry. apply pend_ext; [apply upd_length|].
      intros i. unfold pend_at, s1. simp. destruct (Nat.eq_dec i j) as [->|Hne].
      * rewrite (upd_same _ _ _ _ Ex), Ex. unfold pending, chk_stim. simp. destruct (has_chk x); reflexivity.
      * rewrite upd_other by auto. reflexivity.
    + split; [exact Hlg|exact Hns|]. exists l. split; [exact Hd|]. simp. cbn [unwinding].
      rewrite (pend_ext s (set_main MEnd s)); auto.
  - destruct (forallb is_idle (p_slots s)); [|discriminate]. injection H as <-.
    split; [exact Hlg|exact Hns|]. exists l. split; [exact Hd|]. simp.
    destruct (forallb has_chk (p_slots s)); cbn [unwinding].
    + rewrite (pend_ext s (set_main MReturned s)); auto.
    + rewrite (pend_ext s (set_main MNullDeref s)); auto.
  - destruct (forallb is_idle (p_slots s)); [|discriminate]. injection H as <-.
    split; [exact Hlg|exact Hns|]. exists l. split; [exact Hd|]. exact Hp.
Qed.

Lemma stim_step e ks g a s s' : Inv e ks s -> StimInv e g s -> pstep e a s = Some s' -> StimInv e g s'.
Proof.
  destruct a; cbn; intros HI HS H.
  - eapply stim_main; eauto.
  - unfold timeout_step in H. destruct (p_main s) eqn:EM; try discriminate. destruct (p_queue s); try discriminate.
    destruct (hasTimeout (p_cfg s)); [|discriminate]. injection H as <-. destruct HS as [Hlg Hns (l & Hd & Hp)].
    split; [exact Hlg|exact Hns|]. exists l. split; [exact Hd|]. rewrite EM in Hp. cbn in Hp. simp. cbn [unwinding].
    erewrite (pend_ext s); eauto.
  - eapply stim_worker; eauto.
  - eapply stim_abort; eauto.
Qed.

Lemma stim_init e c g pp : StimInv e g (par_init e c g pp).
Proof.
  split.
  - intros ? ? ? [].
  - intros i x ck Hx Hc. unfold par_init in Hx. cbn in Hx. apply nth_error_repeat in Hx. subst. discriminate.
  - exists []. split; [constructor|]. assert (E : pend (par_init e c g pp) = []).
    { unfold pend. generalize (seq 0 (length (p_slots (par_init e c g pp)))). intros l. induction l as [|i l IH]; [reflexivity|].
      cbn [flat_map]. rewrite IH, app_nil_r. unfold pend_at.
      destruct (nth_error (p_slots (par_init e c g pp)) i) eqn:Ei; [|reflexivity].
      unfold par_init in Ei. cbn in Ei. apply nth_error_repeat in Ei. subst. reflexivity. }
    rewrite E. unfold par_init; simp. destruct (zx_alone_unsupported e c); cbn; constructor.
Qed.

(** *** log entries *)
Record LogInv (ks : list kind) s : Prop := mkLI {
  li_kinds : forall k q st, In (k, q, st) (p_log s) -> In k ks;
  li_all : early (p_main s) = true -> unwinding (p_main s) = false ->
     forall i k x, (i < p_next s)%nat -> nth_error ks i = Some k -> nth_error (p_slots s) i = Some x ->
       sl_w x = WIdle -> ~ In i (p_queue s) -> exists q st, In (k, q, st) (p_log s);
  li_onlyzx : early (p_main s) = true -> onlyZXCheckerConfigured (p_cfg s) = true -> forall q st, ~ In (KZX, q, st) (p_log s) }.

Lemma log_worker e ks i s s' : LogInv ks s -> worker_step e i s = Some s' \/ abort_step i s = Some s' -> LogInv ks s'.
Proof.
  intros [HK HA HO] H. apply worker_shape in H.
  destruct H as [->|(x & x' & Hx & Hw & Hsl & Ecfg & Edn & Emn & Enx & Er & El & HQ & _)].
  - split; simp; auto; discriminate.
  - split; rewrite ?El, ?Emn, ?Ecfg, ?Enx; auto.
    intros E1 E2 j k y Hj Hk Hy Hyw Hnq. rewrite Hsl in Hy. apply upd_inv in Hy.
    destruct Hy as [(-> & -> & _)|(Hne & Hy)].
    + exfalso. destruct HQ as [[_ ?]|[E _]]; [contradiction|]. apply Hnq. rewrite E. apply in_or_app. right. now left.
    + eapply HA; eauto. intros Hin. apply Hnq. destruct HQ as [[-> _]|[-> _]]; [assumption|]. apply in_or_app. now left.
Qed.

Lemma log_main e ks s s' : (onlyZXCheckerConfigured (p_cfg s) = true -> ~ In KSim ks) -> Inv e ks s -> ResInv e ks s -> LogInv ks s -> main_step s = Some s' -> LogInv ks s'.
Proof.
  intros Hzs HI HR [HK HA HO] H. pose proof HI as [HL HN HS HQ HND HD HM]. unfold main_step in H.
  destruct (p_main s) as [[|k rest]| | j | | | | | | |] eqn:EM; try discriminate; cbn [unwinding early] in *.
  - injection H as <-. split; simp; auto.
  - destruct (firstn_app_cons _ _ _ _ HM HN) as (Hk & HM' & HL').
    destruct (nth_error (p_slots s) (p_next s)) as [x|] eqn:Ex.
    2:{ apply nth_error_None in Ex. lia. }
    injection H as <-. split; simp; auto.
    intros _ _ i k' y Hi Hk' Hy Hyw Hnq. apply upd_inv in Hy.
    destruct Hy as [(-> & -> & _)|(Hne & Hy)]; [discriminate|]. eapply HA; eauto. lia.
  - destruct (p_queue s) as [|i q] eqn:EQ; [discriminate|].
    destruct (HQ i (or_introl eq_refl)) as (Hilt & x & Hx & Hw). rewrite Hx in H.
    unfold is_idle in H. rewrite Hw in H. cbn [negb] in H.
    inversion HND as [|? ? Hni HND']; subst.
    destruct (sl_exn x) eqn:Exn.
    { injection H as <-. split; simp; auto. discriminate. }
    destruct (sl_chk x) as [ck|] eqn:Eck.
    2:{ exfalso. destruct (HS _ _ Hx) as [[_ (k & _ & (_ & _ & _ & D))]|[? _]]; [|lia].
        rewrite Hw in D. destruct D as [_ D]. destruct (D Exn) as (? & ? & _). congruence. }
    destruct (inv_consumed _ _ _ _ _ _ _ HI EM EQ Hx Exn Eck) as (Hk & Hnat & Hil).
    assert (HK' : forall k q0 st, In (k, q0, st) ((k_kind ck, k_eq ck, k_stim ck) :: p_log s) -> In k ks).
    { intros k q0 st [E|E]; [|eauto]. injection E as <- <- <-. eapply nth_error_In; eauto. }
    assert (HA' : forall j k y, (j < p_next s)%nat -> nth_error ks j = Some k -> nth_error (p_slots s) j = Some y ->
        sl_w y = WIdle -> ~ In j q -> exists q0 st, In (k, q0, st) ((k_kind ck, k_eq ck, k_stim ck) :: p_log s)).
    { intros j k y Hj Hkj Hy Hyw Hnq. destruct (Nat.eq_dec j i) as [->|Hne].
      - assert (k = k_kind ck) as -> by congruence. exists (k_eq ck), (k_stim ck). now left.
      - destruct (HA eq_refl eq_refl j k y) as (q0 & st & Hin); auto.
        + intros [?|?]; [congruence|contradiction].
        + exists q0, st. now right. }
    destruct (handle (p_cfg s) (p_res s) (k_kind ck) (k_eq ck) (k_stim ck)) as [r|r|r] eqn:EH; injection H as <-.
    + split; simp; auto; discriminate.
    + split; simp; auto. rewrite EM. intros _ Hoz q0 st [E|E]; [|eapply HO; eauto].
      injection E as Ek Eq Es.
      destruct HR as [_ _ Hp]. rewrite EM in Hp. cbn in Hp. destruct Hp as [[_ _ _ _ Her _ _] _].
      unfold handle in EH. rewrite Ek in EH.
      destruct Hnat as [Hnat _]. rewrite Ek in Hnat. cbn in Hnat.
      assert (Hre : r_eq (p_res s) = NoInformation \/ simcount (p_log s) <> O \/ zx_pne (p_log s)).
      { destruct (r_eq (p_res s)); auto; try contradiction. right. left. apply Her. }
      destruct Hre as [Hre|Hre].
      * destruct (zcrit_cases (e_ancilla e) (e_zx e)) as [Z|[Z|[Z|Z]]]; rewrite Z in Hnat; rewrite Hnat in EH; try discriminate;
        rewrite ?Hre in EH; cbn in EH; rewrite Hoz in EH; discriminate.
      * destruct Hre as [Hre|(st' & Hre)]; [|eapply HO; eauto].
        (* simulations are not launched when only ZX is configured *)
        assert (In KSim ks).
        { unfold simcount in Hre. destruct (filter is_sim_entry (p_log s)) as [|[[k0 q1] st1] f] eqn:EF; [cbn in Hre; congruence|].
          assert (Hf : In (k0, q1, st1) (filter is_sim_entry (p_log s))) by (rewrite EF; now left).
          apply filter_In in Hf. destruct Hf as [Hf Hb]. destruct k0; try discriminate. eauto. }
        now apply Hzs in Hoz.
    + split; simp; auto.
      * rewrite EM. intros _ _ j k y Hj Hkj Hy Hyw Hnq. apply upd_inv in Hy.
        destruct Hy as [(-> & -> & _)|(Hne & Hy)]; [discriminate|]. eauto.
      * rewrite EM. intros _ Hoz q0 st [E|E]; [|eapply HO; eauto]. injection E as Ek Eq Es.
        unfold handle in EH. rewrite Ek in EH. destruct (k_eq ck); try discriminate;
        repeat match type of EH with context [if ?b then _ else _] => destruct b end; discriminate.
  - destruct (nth_error (p_slots s) j) as [x|] eqn:Ex; injection H as <-; split; simp; auto; discriminate.
  - destruct (forallb is_idle (p_slots s)); [|discriminate]. injection H as <-.
    split; simp; auto; destruct (forallb has_chk (p_slots s)); discriminate.
  - destruct (forallb is_idle (p_slots s)); [|discriminate]. injection H as <-.
    split; simp; auto; discriminate.
Qed.

Lemma log_timeout ks s s' : LogInv ks s -> timeout_step s = Some s' -> LogInv ks s'.
Proof.
  intros [HK HA HO] H. unfold timeout_step in H. destruct (p_main s) eqn:EM; try discriminate.
  destruct (p_queue s); try discriminate. destruct (hasTimeout (p_cfg s)); [|discriminate]. injection H as <-.
  split; simp; auto; discriminate.
Qed.

(** *** exceptions *)
Definition exn_cause e c (k : kind) : Prop := ctor_throws e c k = true \/ (k = KAlt /\ e_canHandle e = false).
Record ExnInv e (ks : list kind) s : Prop := mkEI {
  xi_slots : forall i x, nth_error (p_slots s) i = Some x -> sl_exn x = true ->
     exists k, nth_error ks i = Some k /\
       ((ctor_throws e (p_cfg s) k = true /\ sl_chk x = None) \/ (k = KAlt /\ e_canHandle e = false /\ sl_chk x <> None));
  xi_term : p_main s = MTerminated -> In KZX ks /\ e_zx_perm_ok e = false;
  xi_unwind : (p_main s = MUnwind \/ p_main s = MThrown) -> exists k, In k ks /\ exn_cause e (p_cfg s) k;
  xi_oob : p_main s <> MOutOfBounds;
  xi_null : p_main s = MNullDeref -> exists k, In k ks /\ ctor_throws e (p_cfg s) k = true;
  xi_next : match p_main s with MLoop | MSignal _ | MEnd | MReturned | MNullDeref => p_next s = length (p_slots s) | _ => True end }.

Lemma exn_worker e ks i s s' : Inv e ks s -> ExnInv e ks s -> worker_step e i s = Some s' \/ abort_step i s = Some s' -> ExnInv e ks s'.
Proof.
  intros HI [HX HT HU HO HN HP] H. pose proof (worker_shape _ _ _ _ H) as HH.
  assert (Main : live s = true -> p_main s <> MNullDeref /\ p_main s <> MTerminated).
  { unfold live. destruct (p_main s); split; intros; discriminate. }
  destruct HH as [->|(x & x' & Hx & Hw & Hsl & Ecfg & Edn & Emn & Enx & Er & El & HQ & _)].
  - (* terminated *)
    split; simp; auto; try (intros [?|?]; discriminate); try discriminate. intros _.
    destruct H as [H|H].
    + unfold worker_step in H. destruct (live s) eqn:EL; cbn [negb] in H; [|discriminate].
      destruct (Main eq_refl) as [_ MM].
      destruct (nth_error (p_slots s) i) as [x|] eqn:Ex; [|discriminate].
      pose proof (inv_slots _ _ _ HI _ _ Ex) as [[_ (k & Hk & (A & _ & _ & D))]|[_ ->]]; [|discriminate].
      assert (Bad : forall y : pst, p_main y = p_main s -> Some y = Some (set_main MTerminated s) -> False).
      { intros y Hy [= ->]. simp. congruence. }
      destruct (sl_w x) as [|k'| | | |] eqn:Ew; try discriminate.
      * destruct D as (-> & _ & _). destruct (sl_chk x); [exfalso; eapply Bad; [|exact H]; reflexivity|].
        destruct (ctor_throws e (p_cfg s) k); [exfalso; eapply Bad; [|exact H]; reflexivity|].
        destruct k; try (exfalso; eapply Bad; [|exact H]; reflexivity).
        destruct (e_zx_perm_ok e) eqn:EZ; [exfalso; eapply Bad; [|exact H]; reflexivity|].
        split; [|reflexivity]. eapply nth_error_In; eauto.
      * destruct (e_gen e (p_gen s)) as [[]|]; [|discriminate]. destruct (sl_chk x); [|discriminate].
        exfalso; eapply Bad; [|exact H]; reflexivity.
      * exfalso; eapply Bad; [|exact H]; reflexivity.
      * destruct (sl_chk x) as [ck|]; [|discriminate].
        destruct (k_kind ck), (e_canHandle e); (exfalso; eapply Bad; [|exact H]; reflexivity).
      * exfalso; eapply Bad; [|exact H]; reflexivity.
    + unfold abort_step in H. destruct (live s) eqn:EL; cbn [negb] in H; [|discriminate].
      destruct (Main eq_refl) as [_ MM].
      destruct (nth_error (p_slots s) i) as [x|] eqn:Ex; [|discriminate].
      destruct (sl_w x), (sl_chk x), (sl_flag x); try discriminate.
      apply (f_equal (fun o => match o with Some y => p_main y | None => MEnd end)) in H. cbn in H. congruence.
  - split; rewrite ?Emn, ?Ecfg; auto.
    2:{ rewrite Hsl, upd_length, Enx. exact HP. }
    rewrite Hsl. intros j y Hy Hexn. apply upd_inv in Hy. destruct Hy as [(-> & -> & _)|(_ & Hy)]; [|auto].
    pose proof (inv_slots _ _ _ HI _ _ Hx) as [[_ (k & Hk & (A & _ & _ & D))]|[_ ->]]; [|cbn in Hw; congruence].
    assert (Same : forall (s1 : pst) z, p_slots s1 = upd (p_slots s) i z -> Some s1 = Some s' -> x' = z).
    { intros s1 z E1 [= ->]. rewrite Hsl in E1. pose proof (upd_same _ _ x' _ Hx) as U1. pose proof (upd_same _ _ z _ Hx) as U2.
      rewrite E1 in U1. congruence. }
    destruct H as [H|H].
    + unfold worker_step in H. destruct (live s) eqn:EL; cbn [negb] in H; [|discriminate]. rewrite Hx in H.
      destruct (sl_w x) as [|k'| | | |] eqn:Ew; try discriminate.
      * destruct D as (-> & De & _). destruct (sl_chk x) as [ck|] eqn:Eck.
        { apply Same with (z := slot_w (match k with KSim => WDraw | _ => WRead end) x) in H; [|reflexivity]. subst x'. cbn in Hexn. congruence. }
        destruct (ctor_throws e (p_cfg s) k) eqn:EC.
        { apply Same with (z := mkSlot None false WPush true) in H; [|reflexivity]. subst x'. exists k. cbn. auto. }
        destruct k; try (eapply Same in H; [|reflexivity]; subst x'; discriminate Hexn).
        destruct (e_zx_perm_ok e); [eapply Same in H; [|reflexivity]; subst x'; discriminate Hexn|].
        injection H as <-. simp. unfold live in EL. rewrite <- Emn in EL. discriminate.
      * destruct D as (-> & _ & De & _). destruct (e_gen e (p_gen s)) as [[st g']|]; [|discriminate].
        destruct (sl_chk x) as [ck|]; [|discriminate]. eapply Same in H; [|reflexivity]. subst x'. cbn in Hexn. congruence.
      * destruct D as (_ & De & _). eapply Same in H; [|reflexivity]. subst x'. unfold slot_w in Hexn. cbn in Hexn. congruence.
      * destruct D as ((ck & Dc & _) & De & _). rewrite Dc in H. pose proof (A _ Dc) as Ek. rewrite Ek in H.
        destruct k; try (eapply Same in H; [|reflexivity]; subst x'; cbn in Hexn; congruence).
        destruct (e_canHandle e) eqn:EH; eapply Same in H; try reflexivity; subst x'; cbn in Hexn; [congruence|].
        exists KAlt. split; [assumption|]. right. cbn. repeat split; auto. discriminate.
      * eapply Same in H; [|reflexivity]. subst x'. unfold slot_w in *. cbn in *. eapply HX; eauto.
    + unfold abort_step in H. destruct (live s) eqn:EL; cbn [negb] in H; [|discriminate]. rewrite Hx in H.
      destruct (sl_w x) as [|k'| | | |] eqn:Ew; try discriminate.
      destruct (sl_chk x) as [ck|] eqn:Eck; [|discriminate]. destruct (sl_flag x); [|discriminate].
      destruct D as (_ & De & _). eapply Same in H; [|reflexivity]. subst x'. cbn in Hexn. congruence.
Qed.

Lemma exn_main e ks s s' : length ks = length (p_slots s) -> Inv e ks s -> ExnInv e ks s -> main_step s = Some s' -> ExnInv e ks s'.
Proof.
  intros Hlen HI [HX HT HU HO HN HP] H. pose proof HI as [HL HNx HS HQ HND HD HM]. unfold main_step in H.
  destruct (p_main s) as [[|k rest]| | j | | | | | | |] eqn:EM; try discriminate.
  - injection H as <-. split; simp; auto; try (intros [?|?]; discriminate); try discriminate.
    rewrite app_nil_r in HM. rewrite <- Hlen. pose proof (f_equal (@length _) HM) as HF. rewrite firstn_length in HF. lia.
  - destruct (firstn_app_cons _ _ _ _ HM HNx) as (Hk & HM' & HL').
    destruct (nth_error (p_slots s) (p_next s)) as [x|] eqn:Ex.
    2:{ apply nth_error_None in Ex. lia. }
    injection H as <-. split; simp; auto; try (intros [?|?]; discriminate); try discriminate.
    intros i y Hy He. apply upd_inv in Hy. destruct Hy as [(-> & -> & _)|(_ & Hy)]; [discriminate|]. eauto.
  - destruct (p_queue s) as [|i q] eqn:EQ; [discriminate|].
    destruct (HQ i (or_introl eq_refl)) as (Hilt & x & Hx & Hw). rewrite Hx in H.
    unfold is_idle in H. rewrite Hw in H. cbn [negb] in H.
    destruct (sl_exn x) eqn:Exn.
    { injection H as <-. split; simp; auto; try discriminate. intros _.
      destruct (HX _ _ Hx Exn) as (k & Hk & Hc). exists k. split; [eapply nth_error_In; eauto|].
      unfold exn_cause. tauto. }
    destruct (sl_chk x) as [ck|] eqn:Eck.
    2:{ exfalso. destruct (HS _ _ Hx) as [[_ (k & _ & (_ & _ & _ & D))]|[? _]]; [|lia].
        rewrite Hw in D. destruct D as [_ D]. destruct (D Exn) as (? & ? & _). congruence. }
    destruct (handle (p_cfg s) (p_res s) (k_kind ck) (k_eq ck) (k_stim ck)) as [r|r|r] eqn:EH; injection H as <-;
      split; simp; rewrite ?EM; auto; try (intros [?|?]; discriminate); try discriminate.
    + intros j y Hy He. apply upd_inv in Hy. destruct Hy as [(-> & -> & _)|(_ & Hy)]; [|eauto]. cbn in He. congruence.
    + now rewrite upd_length.
  - destruct (nth_error (p_slots s) j) as [x|] eqn:Ex; injection H as <-;
      split; simp; auto; try (intros [?|?]; discriminate); try discriminate.
    + intros i y Hy He. apply upd_inv in Hy. destruct Hy as [(-> & -> & _)|(_ & Hy)]; [|eauto].
      destruct (has_chk x); cbn in He |- *; eapply HX; eauto.
    + now rewrite upd_length.
  - destruct (forallb is_idle (p_slots s)) eqn:FI; [|discriminate]. injection H as <-.
    split; simp; auto; try (destruct (forallb has_chk (p_slots s)); intros; try discriminate; intuition discriminate).
    + destruct (forallb has_chk (p_slots s)) eqn:FH; [discriminate|]. intros _.
      assert (NH : exists x, In x (p_slots s) /\ has_chk x = false).
      { clear - FH. induction (p_slots s) as [|a l IH]; [discriminate|]. cbn in FH. apply andb_false_iff in FH.
        destruct FH as [?|FH]; [exists a; split; auto; now left|]. destruct (IH FH) as (x & ? & ?). exists x. split; auto. now right. }
      destruct NH as (x & Hin & Hc). apply In_nth_error in Hin. destruct Hin as (i & Hx).
      rewrite forallb_forall in FI. assert (Hid : is_idle x = true) by (apply FI; eapply nth_error_In; eauto).
      assert (i < length (p_slots s))%nat by (apply nth_error_Some; congruence).
      destruct (HS _ _ Hx) as [[_ (k & Hk & (_ & _ & _ & D))]|[? _]]; [|lia].
      unfold is_idle in Hid. destruct (sl_w x); try discriminate. destruct D as [_ D].
      unfold has_chk in Hc. destruct (sl_chk x) eqn:Eck; [discriminate|].
      destruct (sl_exn x) eqn:Exn; [|destruct (D eq_refl) as (? & ? & _); discriminate].
      destruct (HX _ _ Hx Exn) as (k' & Hk' & [[Ht _]|(_ & _ & ?)]); [|congruence].
      exists k'. split; [eapply nth_error_In; eauto|assumption].
  - destruct (forallb is_idle (p_slots s)) eqn:FI; [|discriminate]. injection H as <-.
    split; simp; auto; try discriminate.
Qed.

Lemma slots_len_step e a s s' : pstep e a s = Some s' -> length (p_slots s') = length (p_slots s).
Proof.
  destruct a; cbn; intros H.
  - unfold main_step in H. destruct (p_main s) as [[|k rest]| | j | | | | | | |] eqn:EM; try discriminate;
    repeat match type of H with
      | context [match ?x with _ => _ end] => destruct x; try discriminate end; injection H as <-; simp; rewrite ?upd_length; reflexivity.
  - unfold timeout_step in H. destruct (p_main s); try discriminate. destruct (p_queue s); try discriminate.
    destruct (hasTimeout (p_cfg s)); [|discriminate]. injection H as <-. reflexivity.
  - assert (HH : worker_step e i s = Some s' \/ abort_step i s = Some s') by auto. apply worker_shape in HH.
    destruct HH as [->|(x & x' & _ & _ & -> & _)]; auto. apply upd_length.
  - assert (HH : worker_step e i s = Some s' \/ abort_step i s = Some s') by auto. apply worker_shape in HH.
    destruct HH as [->|(x & x' & _ & _ & -> & _)]; auto. apply upd_length.
Qed.

Lemma exn_timeout e ks s s' : ExnInv e ks s -> timeout_step s = Some s' -> ExnInv e ks s'.
Proof.
  intros [HX HT HU HO HN HP] H. unfold timeout_step in H. destruct (p_main s) eqn:EM; try discriminate.
  destruct (p_queue s); try discriminate. destruct (hasTimeout (p_cfg s)); [|discriminate]. injection H as <-.
  split; simp; auto; try (intros [?|?]; discriminate); try discriminate.
Qed.

(** *** everything together *)
Record All e c g s : Prop := mkAll {
  a_full : Full e c g s; a_stim : StimInv e g s; a_log : LogInv (launches e c) s;
  a_exn : ExnInv e (launches e c) s; a_len : length (launches e c) = length (p_slots s) }.

Lemma in_launches e c k : In k (launches e c) ->
  match k with KAlt => runAlternatingChecker (exec c) = true | KCon => runConstructionChecker (exec c) = true
             | KZX => zxOn e c = true | KSim => simOn c = true /\ simulationsToStart e c <> 0%N end.
Proof.
  unfold launches, exact_launches. rewrite !in_app_iff. intros H.
  destruct H as [H|H].
  - destruct (runAlternatingChecker (exec c)), (runConstructionChecker (exec c)), (zxOn e c); cbn in H; intuition (subst; auto).
  - apply repeat_spec in H as HK. subst k. unfold simulationsToStart in *. destruct (simOn c); [|contradiction].
    split; [reflexivity|]. intros E. rewrite E in H. contradiction.
Qed.

Lemma onlyzx_nosim e c : onlyZXCheckerConfigured (par_cfg e c) = true -> ~ In KSim (launches e c).
Proof.
  intros H Hin. apply in_launches in Hin. destruct Hin as [Hin _].
  unfold onlyZXCheckerConfigured, par_cfg in H.
  destruct (zx_alone_unsupported e c); cbn in H; rewrite Hin in H; cbn in H;
  rewrite ?andb_false_r in H; discriminate.
Qed.

Lemma all_step e c g a s s' : All e c g s -> pstep e a s = Some s' -> All e c g s'.
Proof.
  intros [F S L X E] H. pose proof F as [FI FR FD FC]. split.
  - eapply full_step; eauto.
  - eapply stim_step; eauto.
  - destruct a; cbn in H; [eapply (log_main e); eauto|eapply log_timeout; eauto|eapply (log_worker e); eauto|eapply (log_worker e); eauto].
    rewrite FC. apply onlyzx_nosim.
  - destruct a; cbn in H; [eapply exn_main; eauto|eapply exn_timeout; eauto|eapply exn_worker; eauto|eapply exn_worker; eauto].
  - rewrite (slots_len_step _ _ _ _ H). exact E.
Qed.

Theorem reachable_all e c g pp s : sane_sims c -> enough_threads e c -> reachable e c g pp s -> All e c g s.
Proof.
  intros Hs He HR. pose proof HR as (acts & H).
  assert (H0 : All e c g (par_init e c g pp)).
  { split.
    - apply (reachable_full e c g pp); auto. exists []. reflexivity.
    - apply stim_init.
    - split; unfold par_init; simp.
      + intros ? ? ? [].
      + intros _ _ i k x Hi. lia.
      + intros _ _ q st [].
    - split; unfold par_init; simp.
      + intros i x Hx. apply nth_error_repeat in Hx. subst. discriminate.
      + destruct (zx_alone_unsupported e c); discriminate.
      + destruct (zx_alone_unsupported e c); intros [?|?]; discriminate.
      + destruct (zx_alone_unsupported e c); discriminate.
      + destruct (zx_alone_unsupported e c); discriminate.
      + destruct (zx_alone_unsupported e c) eqn:Z; [|exact I].
        destruct (zx_alone_launch _ _ Z) as (_ & -> & _). reflexivity.
    - unfold par_init; simp. now rewrite repeat_length, launches_fill. }
  eapply prun_inv; [|exact H0|exact H]. intros a s1 s2. apply all_step.
Qed.
End Proofs.
