(** Result, counter and stimulus invariants of the parallel flow. *)
From Coq Require Import String List Bool NArith QArith Arith Lia.
From Verif Require Import Criterion Config SeqFlow SeqSpec SeqProofs ParFlow ParSpec ParProofs.
Import ListNotations.
Local Open Scope list_scope.

Section Proofs.
Context {Stim Gen : Type}.
Notation env := (env Stim Gen).
Notation pst := (pst Stim Gen).
Notation slot := (slot Stim).
Notation entry := (kind * criterion * option Stim)%type.
Implicit Types (e : env) (s : pst) (c : config) (x : slot) (g : Gen).

Ltac simp := cbn [set_main set_next set_pres set_slot set_queue set_pgen add_log begin_signal set_pdone
   p_cfg p_slots p_queue p_done p_main p_next p_res p_gen p_log phase_signal] in *.

(** what a worker (or abort) step can change *)
Lemma worker_shape e i s s' : worker_step e i s = Some s' \/ abort_step i s = Some s' ->
  s' = set_main MTerminated s \/
  exists x x', nth_error (p_slots s) i = Some x /\ sl_w x <> WIdle /\ p_slots s' = upd (p_slots s) i x' /\
    p_cfg s' = p_cfg s /\ p_done s' = p_done s /\ p_main s' = p_main s /\ p_next s' = p_next s /\
    p_res s' = p_res s /\ p_log s' = p_log s /\
    ((p_queue s' = p_queue s /\ sl_w x' <> WIdle) \/ (p_queue s' = p_queue s ++ [i] /\ sl_w x' = WIdle)) /\
    ((p_gen s' = p_gen s /\ forall ck' st, sl_chk x' = Some ck' -> k_stim ck' = Some st ->
          exists ck, sl_chk x = Some ck /\ k_stim ck = Some st) \/
     (exists st, e_gen e (p_gen s) = Some (st, p_gen s') /\
          forall ck' st', sl_chk x' = Some ck' -> k_stim ck' = Some st' -> st' = st)).
Proof.
  intros [H|H].
  - unfold worker_step in H. destruct (live s); cbn [negb] in H; [|discriminate].
    destruct (nth_error (p_slots s) i) as [x|] eqn:Ex; [|discriminate].
    destruct (sl_w x) as [|k'| | | |] eqn:Ew; try discriminate.
    + destruct (sl_chk x) as [ck|] eqn:Eck.
      { injection H as <-. right. eexists; eexists. split; [reflexivity|]. rewrite Ew. simp.
        split; [discriminate|]. split; [reflexivity|]. repeat split.
        - left. split; [reflexivity|]. unfold slot_w; cbn. destruct k'; discriminate.
        - left. split; [reflexivity|]. unfold slot_w; cbn. eauto. }
      destruct (ctor_throws e (p_cfg s) k').
      { injection H as <-. right. eexists; eexists. split; [reflexivity|]. rewrite Ew. simp.
        split; [discriminate|]. split; [reflexivity|]. repeat split.
        - left. split; [reflexivity|]. discriminate.
        - left. split; [reflexivity|]. cbn. discriminate. }
      assert (HX : forall nx, nx <> WIdle -> Some (set_slot i (mkSlot (Some (mkChecker k' NoInformation (@None Stim))) false nx false) s) = Some s' ->
        exists x0 x' : slot, Some x = Some x0 /\ sl_w x0 <> WIdle /\ p_slots s' = upd (p_slots s) i x' /\
    p_cfg s' = p_cfg s /\ p_done s' = p_done s /\ p_main s' = p_main s /\ p_next s' = p_next s /\
    p_res s' = p_res s /\ p_log s' = p_log s /\
    ((p_queue s' = p_queue s /\ sl_w x' <> WIdle) \/ (p_queue s' = p_queue s ++ [i] /\ sl_w x' = WIdle)) /\
    ((p_gen s' = p_gen s /\ forall ck' st, sl_chk x' = Some ck' -> k_stim ck' = Some st ->
          exists ck, sl_chk x0 = Some ck /\ k_stim ck = Some st) \/
     (exists st, e_gen e (p_gen s) = Some (st, p_gen s') /\
          forall ck' st', sl_chk x' = Some ck' -> k_stim ck' = Some st' -> st' = st))).
      { intros nx Hnx [= <-]. eexists; eexists. split; [reflexivity|]. rewrite Ew. simp.
        split; [discriminate|]. split; [reflexivity|]. repeat split.
        - left. split; [reflexivity|]. exact Hnx.
        - left. split; [reflexivity|]. cbn. intros ck' st [= <-]. discriminate. }
      destruct k'; try (right; eapply HX; [|exact H]; discriminate).
      destruct (e_zx_perm_ok e); [right; eapply HX; [|exact H]; discriminate|].
      injection H as <-. now left.
    + destruct (e_gen e (p_gen s)) as [[stm g']|] eqn:Eg; [|discriminate].
      destruct (sl_chk x) as [ck|] eqn:Eck; [|discriminate]. injection H as <-.
      right. eexists; eexists. split; [reflexivity|]. rewrite Ew. simp.
      split; [discriminate|]. split; [reflexivity|]. repeat split.
      * left. split; [reflexivity|]. discriminate.
      * right. exists stm. split; [reflexivity|]. cbn. intros ck' st' [= <-]. cbn. congruence.
    + injection H as <-. right. eexists; eexists. split; [reflexivity|]. rewrite Ew. simp.
      split; [discriminate|]. split; [reflexivity|]. repeat split.
      * left. split; [reflexivity|]. unfold slot_w; cbn. destruct (p_done s); discriminate.
      * left. split; [reflexivity|]. unfold slot_w; cbn. eauto.
    + destruct (sl_chk x) as [ck|] eqn:Eck; [|discriminate].
      assert (HX : Some (set_slot i (mkSlot (Some (mkChecker (k_kind ck) (natural e (k_kind ck) (k_stim ck)) (k_stim ck)))
                                      (sl_flag x) WPush (sl_exn x)) s) = Some s' ->
        exists x0 x' : slot, Some x = Some x0 /\ sl_w x0 <> WIdle /\ p_slots s' = upd (p_slots s) i x' /\
    p_cfg s' = p_cfg s /\ p_done s' = p_done s /\ p_main s' = p_main s /\ p_next s' = p_next s /\
    p_res s' = p_res s /\ p_log s' = p_log s /\
    ((p_queue s' = p_queue s /\ sl_w x' <> WIdle) \/ (p_queue s' = p_queue s ++ [i] /\ sl_w x' = WIdle)) /\
    ((p_gen s' = p_gen s /\ forall ck' st, sl_chk x' = Some ck' -> k_stim ck' = Some st ->
          exists ck, sl_chk x0 = Some ck /\ k_stim ck = Some st) \/
     (exists st, e_gen e (p_gen s) = Some (st, p_gen s') /\
          forall ck' st', sl_chk x' = Some ck' -> k_stim ck' = Some st' -> st' = st))).
      { intros [= <-]. eexists; eexists. split; [reflexivity|]. rewrite Ew. simp.
        split; [discriminate|]. split; [reflexivity|]. repeat split.
        - left. split; [reflexivity|]. discriminate.
        - left. split; [reflexivity|]. cbn. intros ck' st [= <-] E. cbn in E. eauto. }
      destruct (k_kind ck); try (right; apply HX; exact H).
      destruct (e_canHandle e); try (right; apply HX; exact H).
      injection H as <-. right. eexists; eexists. split; [reflexivity|]. rewrite Ew. simp.
      split; [discriminate|]. split; [reflexivity|]. repeat split.
      * left. split; [reflexivity|]. discriminate.
      * left. split; [reflexivity|]. cbn. intros ck' st Hc Hk. exists ck'. split; congruence.
    + injection H as <-. right. eexists; eexists. split; [reflexivity|]. rewrite Ew. simp.
      split; [discriminate|]. split; [reflexivity|]. repeat split.
      * right. split; reflexivity.
      * left. split; [reflexivity|]. unfold slot_w; cbn. eauto.
  - unfold abort_step in H. destruct (live s); cbn [negb] in H; [|discriminate].
    destruct (nth_error (p_slots s) i) as [x|] eqn:Ex; [|discriminate].
    destruct (sl_w x) as [|k'| | | |] eqn:Ew; try discriminate.
    destruct (sl_chk x) as [ck|] eqn:Eck; [|discriminate]. destruct (sl_flag x) eqn:Ef; [|discriminate].
    injection H as <-. right. eexists; eexists. split; [reflexivity|]. rewrite Ew. simp.
    split; [discriminate|]. split; [reflexivity|]. repeat split.
    + left. split; [reflexivity|]. discriminate.
    + left. split; [reflexivity|]. cbn. intros ck' st [= <-] E. cbn in E. eauto.
Qed.

(** *** stimuli *)
Definition DrawInv e g s : Prop :=
  exists l, draws e g l (p_gen s) /\
    (forall i x ck st, nth_error (p_slots s) i = Some x -> sl_chk x = Some ck -> k_stim ck = Some st -> In st l) /\
    (forall k q st, In (k, q, Some st) (p_log s) -> In st l).

Lemma draw_worker e g i s s' : DrawInv e g s -> worker_step e i s = Some s' \/ abort_step i s = Some s' -> DrawInv e g s'.
Proof.
  intros (l & Hd & Hs & Hl) H. apply worker_shape in H.
  destruct H as [->|(x & x' & Hx & _ & Hsl & _ & _ & _ & _ & _ & Hlog & _ & Hg)]; [exists l; auto|].
  destruct Hg as [[Hg Hst]|(st & Hg & Hst)].
  - exists l. rewrite Hg, Hlog, Hsl. repeat split; auto.
    intros j y ck st Hy Hc Hk. apply upd_inv in Hy. destruct Hy as [(-> & -> & _)|(_ & Hy)]; [|eauto].
    destruct (Hst _ _ Hc Hk) as (ck0 & ? & ?). eauto.
  - exists (l ++ [st]). rewrite Hlog, Hsl. repeat split.
    + eapply draws_app; [exact Hd|]. econstructor; [exact Hg|constructor].
    + intros j y ck st' Hy Hc Hk. apply in_or_app. apply upd_inv in Hy.
      destruct Hy as [(-> & -> & _)|(_ & Hy)]; [|left; eauto].
      right. rewrite (Hst _ _ Hc Hk). now left.
    + intros k q st' Hin. apply in_or_app. left. eauto.
Qed.

Lemma draw_main e g s s' : DrawInv e g s -> main_step s = Some s' -> DrawInv e g s'.
Proof.
  intros (l & Hd & Hs & Hl) H. unfold main_step in H.
  destruct (p_main s) as [[|k rest]| | j | | | | | | |] eqn:EM; try discriminate.
  - injection H as <-. exists l. auto.
  - destruct (nth_error (p_slots s) (p_next s)) as [x|] eqn:Ex; injection H as <-; exists l; simp; auto.
    repeat split; auto. intros j y ck st Hy Hc Hk. apply upd_inv in Hy.
    destruct Hy as [(-> & -> & _)|(_ & Hy)]; [|eauto]. cbn in Hc. eauto.
  - destruct (p_queue s) as [|i q]; [discriminate|].
    destruct (nth_error (p_slots s) i) as [x|] eqn:Ex; [|injection H as <-; exists l; auto].
    destruct (is_idle x); cbn [negb] in H; [|discriminate].
    destruct (sl_exn x); [injection H as <-; exists l; auto|].
    destruct (sl_chk x) as [ck|] eqn:Ec; [|injection H as <-; exists l; auto].
    assert (Hlog : forall k q st, In (k, q, Some st) ((k_kind ck, k_eq ck, k_stim ck) :: p_log s) -> In st l).
    { intros k q0 st [E|E]; [|eauto]. injection E as _ _ E. eauto. }
    destruct (handle _ _ _ _ _); injection H as <-; exists l; simp; repeat split; auto.
    intros j y ck' st Hy Hc Hk. apply upd_inv in Hy. destruct Hy as [(-> & -> & _)|(_ & Hy)]; [|eauto].
    cbn in Hc. eauto.
  - destruct (nth_error (p_slots s) j) as [x|] eqn:Ex; injection H as <-; exists l; simp; auto.
    repeat split; auto. intros i y ck st Hy Hc Hk. apply upd_inv in Hy.
    destruct Hy as [(-> & -> & _)|(_ & Hy)]; [|eauto].
    destruct (has_chk x); cbn in Hc; eauto.
  - destruct (forallb is_idle (p_slots s)); [|discriminate]. injection H as <-. exists l. auto.
  - destruct (forallb is_idle (p_slots s)); [|discriminate]. injection H as <-. exists l. auto.
Qed.

Lemma draw_step e g a s s' : DrawInv e g s -> pstep e a s = Some s' -> DrawInv e g s'.
Proof.
  destruct a; cbn; intros I H.
  - eapply draw_main; eauto.
  - unfold timeout_step in H. destruct (p_main s); try discriminate. destruct (p_queue s); try discriminate.
    destruct (hasTimeout (p_cfg s)); [|discriminate]. injection H as <-. exact I.
  - eapply draw_worker; eauto.
  - eapply draw_worker; eauto.
Qed.

(** *** counting outstanding simulations *)
Definition is_simk (k : kind) : bool := match k with KSim => true | _ => false end.
Definition simslot (ks : list kind) (i : nat) : bool :=
  match nth_error ks i with Some k => is_simk k | None => false end.
Definition idle_at s i : bool := match nth_error (p_slots s) i with Some x => is_idle x | None => true end.
Definition busy (ks : list kind) s (i : nat) : bool :=
  simslot ks i && (negb (idle_at s i) || existsb (Nat.eqb i) (p_queue s)).
Definition outst ks s : nat := length (filter (busy ks s) (seq 0 (length ks))).
Definition nsim (ks : list kind) : nat := length (filter is_simk ks).

Lemma existsb_in i q : existsb (Nat.eqb i) q = true <-> In i q.
Proof.
  rewrite existsb_exists. split.
  - intros (y & H & E). apply Nat.eqb_eq in E. now subst.
  - intros H. exists i. split; [assumption|apply Nat.eqb_refl].
Qed.
Lemma existsb_notin i q : ~ In i q -> existsb (Nat.eqb i) q = false.
Proof. intros H. destruct (existsb (Nat.eqb i) q) eqn:E; [|reflexivity]. now apply existsb_in in E. Qed.

Lemma nsim_slots ks : length (filter (simslot ks) (seq 0 (length ks))) = nsim ks.
Proof.
  unfold nsim. assert (G : forall (pre : list kind) l, ks = pre ++ l ->
     length (filter (simslot ks) (seq (length pre) (length l))) = length (filter is_simk l)).
  { intros pre l. revert pre. induction l as [|k l IH]; intros pre E; [reflexivity|].
    cbn [length seq filter]. unfold simslot at 1. rewrite E at 1.
    rewrite nth_error_app2, Nat.sub_diag by lia. cbn [nth_error].
    specialize (IH (pre ++ [k])). rewrite app_length, Nat.add_1_r in IH. rewrite <- app_assoc in IH. specialize (IH E).
    destruct (is_simk k); cbn [length]; [f_equal|]; exact IH. }
  exact (G [] ks eq_refl).
Qed.

Lemma filter_le {A} (f h : A -> bool) l : (forall a, f a = true -> h a = true) ->
  (length (filter f l) <= length (filter h l))%nat.
Proof.
  intros H. induction l as [|a l IH]; cbn; [lia|]. specialize (H a).
  destruct (f a), (h a); cbn; try lia.
Qed.

Lemma outst_le ks s : (outst ks s <= nsim ks)%nat.
Proof.
  unfold outst. rewrite <- nsim_slots. apply filter_le. unfold busy. now intros a H%andb_true_iff.
Qed.

Lemma worker_busy e ks i s s' : worker_step e i s = Some s' \/ abort_step i s = Some s' ->
  forall j, busy ks s' j = busy ks s j.
Proof.
  intros H j. apply worker_shape in H.
  destruct H as [->|(x & x' & Hx & Hw & Hsl & _ & _ & _ & _ & _ & _ & Hq & _)]; [reflexivity|].
  unfold busy, idle_at. rewrite Hsl. f_equal. destruct (Nat.eq_dec j i) as [->|Hne].
  - rewrite (upd_same _ _ _ _ Hx), Hx. unfold is_idle.
    assert ((match sl_w x with WIdle => true | _ => false end) = false) as -> by (destruct (sl_w x); congruence).
    destruct Hq as [[-> Hw']|[-> Hw']].
    + assert ((match sl_w x' with WIdle => true | _ => false end) = false) as -> by (destruct (sl_w x'); congruence). reflexivity.
    + rewrite Hw', existsb_app. cbn. rewrite Nat.eqb_refl. now rewrite orb_true_r.
  - rewrite upd_other by auto. destruct Hq as [[-> _]|[-> _]]; [reflexivity|].
    rewrite existsb_app. cbn. apply Nat.eqb_neq in Hne. rewrite Hne. now rewrite !orb_false_r.
Qed.

(** *** results before a decision is made *)
Definition early_entry (x : entry) : Prop :=
  match x with
  | (KSim, q, _) => q <> NotEquivalent /\ q <> NoInformation
  | (KZX, q, _) => q = ProbablyNotEquivalent \/ q = NoInformation
  | _ => False
  end.
Definition zx_pne (log : list entry) : Prop := exists st, In (KZX, ProbablyNotEquivalent, st) log.
Definition simcount (log : list entry) : nat := length (filter is_sim_entry log).

Record EarlyRes c (r : results Stim) (log : list entry) : Prop := mkER {
  er_cexIn : r_cexIn r = None; er_cexOut : r_cexOut r = None;
  er_entries : Forall early_entry log;
  er_perf : r_performed r = N.of_nat (simcount log);
  er_eq : match r_eq r with
          | NoInformation => simcount log = O /\ ~ zx_pne log
          | ProbablyEquivalent => simcount log <> O /\ ~ zx_pne log
          | ProbablyNotEquivalent => zx_pne log
          | _ => False end;
  (* as long as the flow goes on, the simulations and ZX have not contradicted each other at the end *)
  er_open : zx_pne log -> simcount log <> O -> r_performed r <> maxSims (sim c);
  er_onlysim : onlySimulationCheckerConfigured c = true -> simcount log <> O -> r_performed r <> maxSims (sim c) }.

(** the result at the moment the flow stops *)
Definition natural_entry e (x : entry) : Prop :=
  match x with (k, q, st) => q = natural e k st /\ (k = KSim -> st <> None) /\ (k = KAlt -> e_canHandle e = true) end.

Definition Stopped e c (n : nat) (r : results Stim) (log : list entry) : Prop :=
  Forall (natural_entry e) log /\
  exists r0 log0, EarlyRes c r0 log0 /\
    (r_performed r0 <= r_started r0)%N /\ (r_started r0 <= maxSims (sim c))%N /\
    (r_started r0 - r_performed r0 <= N.of_nat n)%N /\
    ((r = r0 /\ log = log0 /\ (hasTimeout c = true \/ (log = [] /\ r_eq r = NoInformation /\ onlyZXCheckerConfigured c = true /\ e_transformable e = false))) \/
     (exists k q st, log = (k, q, st) :: log0 /\ handle c r0 k q st = Stop r /\
        (k = KSim -> (r_performed r0 + 1 <= r_started r0)%N))).

Record ResInv e (ks : list kind) s : Prop := mkRI {
  ri_natural : Forall (natural_entry e) (p_log s);
  ri_cfg_sims : (nsim ks <= N.to_nat (maxSims (sim (p_cfg s))))%nat;
  ri_phase :
    if early (p_main s) then
      EarlyRes (p_cfg s) (p_res s) (p_log s) /\
      match p_main s with
      | MLaunch rest => (r_started (p_res s) + N.of_nat (nsim rest) = N.of_nat (nsim ks))%N /\ p_log s = [] /\
                        r_started (p_res s) = N.of_nat (outst ks s)
      | MLoop => (r_started (p_res s) = r_performed (p_res s) + N.of_nat (outst ks s))%N /\
                 (r_started (p_res s) <= maxSims (sim (p_cfg s)))%N /\
                 (r_started (p_res s) = maxSims (sim (p_cfg s)) \/ outst ks s = nsim ks)
      | _ => (r_performed (p_res s) <= r_started (p_res s))%N /\ (r_started (p_res s) <= maxSims (sim (p_cfg s)))%N
      end
    else p_main s <> MTerminated -> p_main s <> MOutOfBounds ->
         Stopped e (p_cfg s) (nsim ks) (p_res s) (p_log s) }.

Lemma outst_ext ks s s' : (forall j, busy ks s' j = busy ks s j) -> outst ks s' = outst ks s.
Proof. intros H. unfold outst. apply filter_len_ext. auto. Qed.

Lemma res_worker e ks i s s' : ResInv e ks s -> worker_step e i s = Some s' \/ abort_step i s = Some s' -> ResInv e ks s'.
Proof.
  intros [Hn Hc Hp] H. pose proof (outst_ext _ _ _ (worker_busy e ks i s s' H)) as Ho.
  apply worker_shape in H.
  destruct H as [->|(x & x' & Hx & Hw & Hsl & Ecfg & Edn & Emn & Enx & Er & El & _)].
  - split; auto. simp. cbn. congruence.
  - split; rewrite ?El, ?Ecfg, ?Emn, ?Er, ?Ho; auto.
Qed.

Lemma outst_flip ks s s' i : (i < length ks)%nat -> (forall j, j <> i -> busy ks s' j = busy ks s j) ->
  (outst ks s' + (if busy ks s i then 1 else 0) = outst ks s + (if busy ks s' i then 1 else 0))%nat.
Proof.
  intros Hi H. unfold outst. apply filter_flip; auto.
  - apply seq_NoDup.
  - apply in_seq. lia.
Qed.

Lemma zx_pne_cons k q st log : zx_pne ((k, q, st) :: log) <-> (k = KZX /\ q = ProbablyNotEquivalent) \/ zx_pne log.
Proof.
  unfold zx_pne. split.
  - intros (st' & [E|E]); [injection E as -> -> _; auto|eauto].
  - intros [[-> ->]|(st' & H)]; [exists st; now left|exists st'; now right].
Qed.
Lemma simcount_cons k q st log : simcount ((k, q, st) :: log) = ((if is_simk k then 1 else 0) + simcount log)%nat.
Proof. unfold simcount. destruct k; reflexivity. Qed.

(** continuing decisions keep the early invariant; the counters move as expected *)
Lemma handle_continue c (r r' : results Stim) log k q st :
  EarlyRes c r log -> (k = KSim -> st <> None) -> handle c r k q st = Continue r' ->
  (k = KZX -> q = Equivalent \/ q = EquivalentUpToGlobalPhase \/ q = NoInformation \/ q = ProbablyNotEquivalent) ->
  EarlyRes c r' ((k, q, st) :: log) /\ r_started r' = r_started r /\
  r_performed r' = (r_performed r + (if is_simk k then 1 else 0))%N /\
  (is_simk k = true -> r_performed r' = maxSims (sim c) \/ (maxSims (sim c) <= r_started r')%N).
Proof.
  intros [E1 E2 E3 E4 E5 E6 E7] _ H Hz. unfold handle in H.
  destruct k.
  - (* simulation *)
    assert (Hq : q <> NotEquivalent /\ q <> NoInformation) by (destruct q; split; try discriminate H; discriminate).
    assert (H' : (let r1 := set_counts (r_started r) (r_performed r + 1) r in
      let r2 := if is_ce (r_eq r1) NoInformation then set_eq ProbablyEquivalent r1 else r1 in
      if simulationsFinished c r2 then
        if onlySimulationCheckerConfigured c then Stop r2
        else if is_ce (r_eq r2) ProbablyNotEquivalent then Stop (set_eq NoInformation r2) else Continue r2
      else if N.ltb (r_started r2) (maxSims (sim c))
        then Restart (set_counts (r_started r2 + 1) (r_performed r2) r2) else Continue r2) = Continue r')
      by (destruct q; auto; destruct Hq; congruence).
    clear H. cbn zeta in H'.
    set (r2 := if is_ce (r_eq (set_counts (r_started r) (r_performed r + 1) r)) NoInformation
               then set_eq ProbablyEquivalent (set_counts (r_started r) (r_performed r + 1) r)
               else set_counts (r_started r) (r_performed r + 1) r) in *.
    assert (S2 : r_started r2 = r_started r) by (unfold r2; destruct (is_ce _ _); reflexivity).
    assert (P2 : r_performed r2 = (r_performed r + 1)%N) by (unfold r2; destruct (is_ce _ _); reflexivity).
    assert (C2 : r_cexIn r2 = None /\ r_cexOut r2 = None) by (unfold r2; destruct (is_ce _ _); auto).
    assert (Q2 : match r_eq r2 with ProbablyEquivalent => ~ zx_pne log | ProbablyNotEquivalent => zx_pne log | _ => False end).
    { unfold r2. cbn [set_counts r_eq]. destruct (r_eq r) eqn:EQ; cbn; try rewrite EQ; try tauto. }
    assert (R : r' = r2 /\ (simulationsFinished c r2 = true -> onlySimulationCheckerConfigured c = false /\ r_eq r2 <> ProbablyNotEquivalent) /\
              (simulationsFinished c r2 = true \/ (maxSims (sim c) <= r_started r2)%N)).
    { destruct (simulationsFinished c r2).
      - destruct (onlySimulationCheckerConfigured c); [discriminate|].
        destruct (r_eq r2) eqn:EQ2; cbn in H'; try discriminate; injection H' as <-; repeat split; auto; discriminate.
      - destruct (N.ltb (r_started r2) (maxSims (sim c))) eqn:EL; [discriminate|]. injection H' as <-.
        apply N.ltb_ge in EL. repeat split; auto; discriminate. }
    destruct R as (-> & Rf & Rg).
    assert (Hfin : simulationsFinished c r2 = true <-> r_performed r2 = maxSims (sim c))
      by (unfold simulationsFinished; apply N.eqb_eq).
    split; [|split; [|split]]; auto.
    + destruct C2 as [C2a C2b]. split; auto.
      * rewrite simcount_cons. cbn [is_simk]. lia.
      * destruct (r_eq r2); try contradiction; rewrite ?simcount_cons, ?zx_pne_cons; cbn [is_simk]; intuition discriminate.
      * rewrite zx_pne_cons. intros [[? _]|Hz'] _ Hm; [discriminate|].
        apply Hfin in Hm. destruct (Rf Hm) as [_ Hne]. destruct (r_eq r2); try contradiction; congruence.
      * intros Ho _ Hm. apply Hfin in Hm. destruct (Rf Hm). congruence.
    + intros _. destruct Rg as [Rg|Rg]; [left; now apply Hfin|now right].
  - destruct q; discriminate.
  - destruct q; discriminate.
  - (* ZX *)
    specialize (Hz eq_refl). cbn [is_simk]. rewrite N.add_0_r.
    destruct Hz as [-> |[-> |[-> | ->]]]; try discriminate.
    + destruct (onlyZXCheckerConfigured c); [discriminate|]. injection H as <-.
      split; [|repeat split; auto; discriminate]. split; auto.
      * constructor; auto. cbn. auto.
      * destruct (r_eq r); auto; try tauto; rewrite ?simcount_cons, ?zx_pne_cons; cbn [is_simk Nat.add]; intuition discriminate.
      * rewrite simcount_cons, zx_pne_cons. cbn [is_simk Nat.add]. intros [[_ ?]|?]; [discriminate|auto].
    + assert (Hpe : Forall early_entry ((KZX, ProbablyNotEquivalent, st) :: log)) by (constructor; auto; cbn; auto).
      destruct (r_eq r) eqn:EQ; cbn [is_ce criterion_eqb] in H; try contradiction.
      * destruct (onlyZXCheckerConfigured c); [discriminate|]. injection H as <-.
        split; [|repeat split; auto; discriminate]. split; cbn [set_eq r_cexIn r_cexOut r_performed r_eq]; auto.
        -- rewrite zx_pne_cons. auto.
        -- rewrite simcount_cons. cbn [is_simk Nat.add]. intros _ Hs. destruct E5. contradiction.
      * destruct (simulationsFinished c r) eqn:Hf; [discriminate|]. injection H as <-.
        split; [|repeat split; auto; discriminate]. split; cbn [set_eq r_cexIn r_cexOut r_performed r_eq]; auto.
        -- rewrite zx_pne_cons. auto.
        -- intros _ _. unfold simulationsFinished in Hf. now apply N.eqb_neq in Hf.
      * injection H as <-. split; [|repeat split; auto; discriminate]. split; auto.
        -- rewrite EQ, zx_pne_cons. auto.
Qed.

Lemma handle_restart c (r r' : results Stim) log k q st :
  EarlyRes c r log -> handle c r k q st = Restart r' ->
  k = KSim /\ EarlyRes c r' ((k, q, st) :: log) /\ r_started r' = (r_started r + 1)%N /\
  r_performed r' = (r_performed r + 1)%N /\ (r_started r < maxSims (sim c))%N.
Proof.
  intros [E1 E2 E3 E4 E5 E6 E7] H. unfold handle in H.
  destruct k; try (exfalso; destruct q; try discriminate;
     repeat match type of H with context [if ?b then _ else _] => destruct b end; discriminate).
  split; [reflexivity|].
  assert (Hq : q <> NotEquivalent /\ q <> NoInformation) by (destruct q; split; try discriminate H; discriminate).
  assert (H' : (let r1 := set_counts (r_started r) (r_performed r + 1) r in
      let r2 := if is_ce (r_eq r1) NoInformation then set_eq ProbablyEquivalent r1 else r1 in
      if simulationsFinished c r2 then
        if onlySimulationCheckerConfigured c then Stop r2
        else if is_ce (r_eq r2) ProbablyNotEquivalent then Stop (set_eq NoInformation r2) else Continue r2
      else if N.ltb (r_started r2) (maxSims (sim c))
        then Restart (set_counts (r_started r2 + 1) (r_performed r2) r2) else Continue r2) = Restart r')
    by (destruct q; auto; destruct Hq; congruence).
  clear H. cbn zeta in H'.
  set (r2 := if is_ce (r_eq (set_counts (r_started r) (r_performed r + 1) r)) NoInformation
               then set_eq ProbablyEquivalent (set_counts (r_started r) (r_performed r + 1) r)
               else set_counts (r_started r) (r_performed r + 1) r) in *.
  assert (S2 : r_started r2 = r_started r) by (unfold r2; destruct (is_ce _ _); reflexivity).
  assert (P2 : r_performed r2 = (r_performed r + 1)%N) by (unfold r2; destruct (is_ce _ _); reflexivity).
  assert (C2 : r_cexIn r2 = None /\ r_cexOut r2 = None) by (unfold r2; destruct (is_ce _ _); auto).
  assert (Q2 : match r_eq r2 with ProbablyEquivalent => ~ zx_pne log | ProbablyNotEquivalent => zx_pne log | _ => False end).
  { unfold r2. cbn [set_counts r_eq]. destruct (r_eq r) eqn:EQ; cbn; try rewrite EQ; try tauto. }
  destruct (simulationsFinished c r2) eqn:Hf.
  { destruct (onlySimulationCheckerConfigured c); [discriminate|]. destruct (is_ce (r_eq r2) ProbablyNotEquivalent); discriminate. }
  destruct (N.ltb (r_started r2) (maxSims (sim c))) eqn:EL; [|discriminate]. injection H' as <-.
  apply N.ltb_lt in EL. unfold simulationsFinished in Hf. apply N.eqb_neq in Hf.
  destruct C2. split; [|repeat split; cbn; lia].
  split; cbn [set_counts r_cexIn r_cexOut r_performed r_eq]; auto.
  - rewrite simcount_cons. cbn [is_simk]. lia.
  - destruct (r_eq r2); try contradiction; rewrite ?simcount_cons, ?zx_pne_cons; cbn [is_simk]; intuition discriminate.
Qed.

End Proofs.
