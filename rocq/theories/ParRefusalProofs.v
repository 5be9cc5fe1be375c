(** Lemmas for C82: refusing checkers in the parallel flow. *)
From Coq Require Import String List Bool NArith QArith Arith Lia.
From Verif Require Import Criterion Config SeqFlow SeqSpec SeqProofs ParFlow ParSpec ParProofs ParProofs2 ParProofs3 ParProofs4 ParProofs5 ParProofs6 ParProofs7 ParDraws RefusalSpec RefusalProofs ParRefusalSpec.
Import ListNotations.
Local Open Scope list_scope.

Section Proofs.
Context {Stim Gen : Type}.
Notation env := (env Stim Gen).
Notation pst := (pst Stim Gen).
Notation slot := (slot Stim).
Implicit Types (e : env) (s : pst) (c : config) (g : Gen) (x : slot).

Lemma takes_part_iff e c k : sane_sims c -> enough_threads e c -> In k (launches e c) <-> takes_part e c k.
Proof.
  intros HS HE. pose proof (exact_length e c) as XL. pose proof (tasks_eq e c HS) as TE. pose proof (toStart_eq e c HS HE) as TS.
  assert (OT : N.of_nat (length (exact_launches e c)) = other_threads e c) by (rewrite XL; reflexivity).
  rewrite OT in *. unfold enough_threads in HE. fold (other_threads e c) in HE.
  split.
  - intros H. apply in_launches in H. destruct k; cbn [takes_part]; auto.
    + destruct H as [SO HN]. unfold simOn in SO. apply andb_true_iff in SO. destruct SO as [S1 S2]. apply N.ltb_lt in S2.
      repeat split; auto. rewrite TS in HN. unfold effectiveThreads in HN. lia.
    + unfold zxOn in H. now apply andb_true_iff in H.
  - intros H. apply in_launches_rev. destruct k; cbn [takes_part] in H; auto.
    + destruct H as (H1 & H2 & H3). rewrite TS. unfold effectiveThreads. rewrite TE. unfold wanted, simOn.
      rewrite H1. apply N.ltb_lt in H2 as H2'. rewrite H2'. cbn [andb]. lia.
    + unfold zxOn. now apply andb_true_iff.
Qed.

Lemma ctor_par_cfg e c k : ctor_throws e (par_cfg e c) k = ctor_throws e c k.
Proof. unfold par_cfg. destruct (zx_alone_unsupported e c); reflexivity. Qed.

(** *** a constructed checker's constructor does not throw *)
Definition CtorInv e s : Prop :=
  (forall i x ck, nth_error (p_slots s) i = Some x -> sl_chk x = Some ck -> ctor_throws e (p_cfg s) (k_kind ck) = false) /\
  (forall k q st, In (k, q, st) (p_log s) -> ctor_throws e (p_cfg s) k = false) /\
  (p_main s = MReturned -> forallb has_chk (p_slots s) = true).

Ltac simp := cbn [set_main set_next set_pres set_slot set_queue set_pgen add_log begin_signal set_pdone
   p_cfg p_slots p_queue p_done p_main p_next p_res p_gen p_log phase_signal] in *.

Lemma live_not_returned s : live s = true -> p_main s <> MReturned.
Proof. unfold live. destruct (p_main s); discriminate. Qed.

Lemma ctor_slot e s i x x' g' q : CtorInv e s -> live s = true -> nth_error (p_slots s) i = Some x ->
  (forall ck, sl_chk x' = Some ck -> ctor_throws e (p_cfg s) (k_kind ck) = false) ->
  CtorInv e (set_pgen g' (set_queue q (set_slot i x' s))).
Proof.
  intros (A & B & C) HL Hx Hx'. split; [|split]; simp; auto.
  - intros j y ck Hy Hck. apply upd_inv in Hy. destruct Hy as [(-> & -> & _)|(_ & Hy)]; eauto.
  - intros HM. exfalso. eapply live_not_returned; eauto.
Qed.

Lemma ctor_step e a s s' : CtorInv e s -> pstep e a s = Some s' -> CtorInv e s'.
Proof.
  intros CI H. pose proof CI as (A & B & C). destruct a as [| |i|i]; cbn in H.
  - unfold main_step in H. destruct (p_main s) as [[|k rest]| | j | | | | | | |] eqn:EM; try discriminate.
    + injection H as <-. split; [|split]; simp; auto; discriminate.
    + destruct (nth_error (p_slots s) (p_next s)) as [x|] eqn:Hx; injection H as <-.
      * split; [|split]; simp; auto; try discriminate.
        intros j y ck Hy Hck. apply upd_inv in Hy. destruct Hy as [(-> & -> & _)|(_ & Hy)]; [cbn in Hck|]; eauto.
      * split; [|split]; simp; auto; discriminate.
    + destruct (p_queue s) as [|i q] eqn:EQ; [discriminate|].
      destruct (nth_error (p_slots s) i) as [x|] eqn:Hx; [|injection H as <-; split; [|split]; simp; auto; discriminate].
      destruct (negb (is_idle x)); [discriminate|].
      destruct (sl_exn x); [injection H as <-; split; [|split]; simp; auto; discriminate|].
      destruct (sl_chk x) as [ck|] eqn:Eck; [|injection H as <-; split; [|split]; simp; auto; discriminate].
      assert (LG : forall k q st, In (k, q, st) ((k_kind ck, k_eq ck, k_stim ck) :: p_log s) -> ctor_throws e (p_cfg s) k = false).
      { intros k q0 st [E|Hi]; [injection E as <- _ _; eauto|eauto]. }
      destruct (handle (p_cfg s) (p_res s) (k_kind ck) (k_eq ck) (k_stim ck)) as [r|r|r]; injection H as <-;
        split; [|split| |split| |split]; simp; auto; rewrite ?EM; try discriminate.
      intros j y ck' Hy Hck. apply upd_inv in Hy. destruct Hy as [(-> & -> & _)|(_ & Hy)]; [|eauto]. cbn in Hck. eauto.
    + destruct (nth_error (p_slots s) j) as [x|] eqn:Hx; injection H as <-; split; [|split| |split]; simp; auto; try discriminate.
      intros j' y ck' Hy Hck. apply upd_inv in Hy. destruct Hy as [(-> & -> & _)|(_ & Hy)]; [|eauto].
      destruct (has_chk x); cbn in Hck; eauto.
    + destruct (forallb is_idle (p_slots s)); [|discriminate]. injection H as <-. split; [|split]; simp; auto.
      destruct (forallb has_chk (p_slots s)) eqn:F; [auto|discriminate].
    + destruct (forallb is_idle (p_slots s)); [|discriminate]. injection H as <-. split; [|split]; simp; auto. discriminate.
  - unfold timeout_step in H. destruct (p_main s); try discriminate. destruct (p_queue s); [|discriminate].
    destruct (hasTimeout (p_cfg s)); [|discriminate]. injection H as <-. split; [|split]; simp; auto. discriminate.
  - unfold worker_step in H. destruct (live s) eqn:HL; cbn [negb] in H; [|discriminate].
    destruct (nth_error (p_slots s) i) as [x|] eqn:Hx; [|discriminate].
    assert (G : forall x', (forall ck, sl_chk x' = Some ck -> ctor_throws e (p_cfg s) (k_kind ck) = false) -> CtorInv e (set_slot i x' s)).
    { intros x' Hx'. exact (ctor_slot e s i x x' (p_gen s) (p_queue s) CI HL Hx Hx'). }
    destruct (sl_w x) eqn:Ew; try discriminate.
    + destruct (sl_chk x) as [ck|] eqn:Eck.
      * injection H as <-. apply G. cbn. intros ck' E. eauto.
      * destruct (ctor_throws e (p_cfg s) k) eqn:CT; [injection H as <-; apply G; cbn; discriminate|].
        assert (GG : forall w, CtorInv e (set_slot i (mkSlot (Some (mkChecker k NoInformation None)) false w false) s)).
        { intros w. apply G. cbn. intros ck' E. injection E as <-. exact CT. }
        destruct k; try (injection H as <-; apply GG). destruct (e_zx_perm_ok e); injection H as <-; [apply GG|].
        split; [|split]; simp; auto. discriminate.
    + destruct (e_gen e (p_gen s)) as [[st g']|]; [|discriminate]. destruct (sl_chk x) as [ck|] eqn:Eck; [|discriminate].
      injection H as <-. apply (ctor_slot e s i x _ g' (p_queue s) CI HL Hx). cbn. intros ck' E. injection E as <-. cbn. eauto.
    + injection H as <-. apply G. cbn. eauto.
    + destruct (sl_chk x) as [ck|] eqn:Eck; [|discriminate].
      assert (GG : forall q w b f st, CtorInv e (set_slot i (mkSlot (Some (mkChecker (k_kind ck) q st)) f w b) s)).
      { intros. apply G. cbn. intros ck' E. injection E as <-. cbn. eauto. }
      destruct (k_kind ck) eqn:Ek, (e_canHandle e); injection H as <-; try apply GG. apply G. cbn. intros ck' E. injection E as <-. eauto.
    + injection H as <-. apply (ctor_slot e s i x (slot_w WIdle x) (p_gen s) (p_queue s ++ [i]) CI HL Hx). cbn. eauto.
  - unfold abort_step in H. destruct (live s) eqn:HL; cbn [negb] in H; [|discriminate].
    destruct (nth_error (p_slots s) i) as [x|] eqn:Hx; [|discriminate].
    destruct (sl_w x); try discriminate. destruct (sl_chk x) as [ck|] eqn:Eck; [|discriminate]. destruct (sl_flag x); [|discriminate].
    injection H as <-. apply (ctor_slot e s i x _ (p_gen s) (p_queue s) CI HL Hx). cbn. intros ck' E. injection E as <-. cbn. eauto.
Qed.

Lemma ctor_reachable e c g pp s : reachable e c g pp s -> CtorInv e s.
Proof.
  intros (acts & H). revert H. apply (prun_inv (CtorInv e)); [intros a s1 s2; apply ctor_step|].
  split; [|split]; unfold par_init; simp.
  - intros i x ck Hx. apply nth_error_repeat in Hx. subst. discriminate.
  - intros k q st [].
  - destruct (zx_alone_unsupported e c); discriminate.
Qed.

Theorem never_returns e c g pp s k : sane_sims c -> enough_threads e c -> reachable e c g pp s ->
  takes_part e c k -> constructor_refuses e c k -> p_main s <> MReturned.
Proof.
  intros HS HE HR HT HC HM. apply (proj2 (takes_part_iff e c k HS HE)) in HT. apply ctor_throws_iff in HC.
  pose proof (reachable_all _ _ _ _ _ HS HE HR) as AL. destruct (ctor_reachable _ _ _ _ _ HR) as (A & _ & C).
  specialize (C HM). pose proof (a_full _ _ _ _ AL) as [FI _ _ FC]. pose proof (xi_next _ _ _ (a_exn _ _ _ _ AL)) as XN. rewrite HM in XN.
  apply In_nth_error in HT. destruct HT as (i & Hi).
  assert (Hl : (i < length (p_slots s))%nat) by (rewrite <- (a_len _ _ _ _ AL); apply nth_error_Some; congruence).
  destruct (nth_error (p_slots s) i) as [x|] eqn:Hx; [|apply nth_error_None in Hx; lia].
  pose proof (inv_slots _ _ _ FI _ _ Hx) as [[_ (k' & Hk' & (AA & _))]|[? _]]; [|lia].
  assert (k' = k) as -> by congruence.
  rewrite forallb_forall in C. assert (HH : has_chk x = true) by (apply C; eapply nth_error_In; eauto).
  unfold has_chk in HH. destruct (sl_chk x) as [ck|] eqn:Eck; [|discriminate].
  pose proof (A _ _ _ Hx Eck) as F. rewrite (AA _ eq_refl), FC, ctor_par_cfg in F. congruence.
Qed.

Theorem throw_only_if e c g pp s : sane_sims c -> enough_threads e c -> reachable e c g pp s ->
  p_main s = MUnwind \/ p_main s = MThrown -> exists k, takes_part e c k /\ refuses e c k.
Proof.
  intros HS HE HR HM. pose proof (reachable_all _ _ _ _ _ HS HE HR) as AL.
  destruct (xi_unwind _ _ _ (a_exn _ _ _ _ AL) HM) as (k & Hk & HC). exists k. split; [now apply takes_part_iff|].
  rewrite (f_cfg _ _ _ _ (a_full _ _ _ _ AL)) in HC. unfold exn_cause in HC. rewrite ctor_par_cfg in HC. unfold refuses.
  now rewrite <- ctor_throws_iff.
Qed.

(** *** from the unwinding on *)
Lemma unwind_step e a s s' : unwinding (p_main s) = true -> pstep e a s = Some s' -> unwinding (p_main s') = true.
Proof.
  intros U H. destruct a as [| |i|i]; cbn in H.
  - unfold main_step in H. destruct (p_main s); try discriminate. destruct (forallb is_idle (p_slots s)); [|discriminate].
    injection H as <-. reflexivity.
  - unfold timeout_step in H. destruct (p_main s); discriminate.
  - pose proof (worker_shape e i s s' (or_introl H)) as HH. destruct HH as [->|(x & x' & _ & _ & _ & _ & _ & E & _)]; [reflexivity|]. congruence.
  - pose proof (worker_shape e i s s' (or_intror H)) as HH. destruct HH as [->|(x & x' & _ & _ & _ & _ & _ & E & _)]; [reflexivity|]. congruence.
Qed.
Theorem unwind_stays e acts s s' : unwinding (p_main s) = true -> prun e acts s = Some s' -> unwinding (p_main s') = true.
Proof. intros H0 H. revert H. apply (prun_inv (fun s => unwinding (p_main s) = true)); [intros a s1 s2; apply unwind_step|exact H0]. Qed.

Lemma prun_app e l1 l2 (x : pst) : prun e (l1 ++ l2) x = match prun e l1 x with Some y => prun e l2 y | None => None end.
Proof. revert x. induction l1 as [|a l1 IH]; intros x; [reflexivity|]. cbn. destruct (pstep e a x); [apply IH|reflexivity]. Qed.

(** launching *)
Lemma launch_run e : forall rest s, p_main s = MLaunch rest -> (p_next s + length rest <= length (p_slots s))%nat ->
  (forall i x, (p_next s <= i)%nat -> nth_error (p_slots s) i = Some x -> x = empty_slot) ->
  exists s', prun e (repeat AMain (length rest)) s = Some s' /\ p_main s' = MLaunch [] /\ p_queue s' = p_queue s /\ p_done s' = p_done s /\
    p_cfg s' = p_cfg s /\ (forall i, (i < p_next s)%nat -> nth_error (p_slots s') i = nth_error (p_slots s) i) /\
    (forall j k, nth_error rest j = Some k -> nth_error (p_slots s') (p_next s + j) = Some (mkSlot None false (WStart k) false)).
Proof.
  induction rest as [|k rest IH]; intros s HM HL HE.
  - exists s. cbn. repeat split; auto. intros [|j] k; discriminate.
  - cbn [length] in HL. destruct (nth_error (p_slots s) (p_next s)) as [x|] eqn:Hx; [|apply nth_error_None in Hx; lia].
    cbn [length repeat prun pstep]. unfold main_step. rewrite HM, Hx.
    match goal with |- exists s', prun _ _ ?t = _ /\ _ => set (s1 := t) end.
    assert (M1 : p_main s1 = MLaunch rest) by reflexivity. assert (N1 : p_next s1 = S (p_next s)) by reflexivity.
    pose proof (HE _ _ (le_n _) Hx) as Ex. subst x.
    assert (L1 : p_slots s1 = upd (p_slots s) (p_next s) (mkSlot None false (WStart k) false)) by reflexivity.
    destruct (IH s1 M1) as (s' & R & A1 & A2 & A3 & A4 & A5 & A6).
    + rewrite N1, L1, upd_length. lia.
    + intros i x Hi Hxi. rewrite N1 in Hi. rewrite L1, upd_other in Hxi by lia. eapply HE; [|exact Hxi]. lia.
    + exists s'. rewrite N1 in *. split; [exact R|]. repeat split; auto.
      * intros i Hi. rewrite A5 by lia. rewrite L1, upd_other by lia. reflexivity.
      * intros [|j] k' Hk'; cbn in Hk'.
        { injection Hk' as <-. rewrite Nat.add_0_r, A5 by lia. rewrite L1. eapply upd_same; eauto. }
        { replace (p_next s + S j)%nat with (S (p_next s) + j)%nat by lia. now apply A6. }
Qed.

(** one slot step, spelled out *)
Lemma prun_cons e a l s s1 : pstep e a s = Some s1 -> prun e (a :: l) s = prun e l s1.
Proof. intros H. cbn. now rewrite H. Qed.

Theorem throw_possible e c g pp k : sane_sims c -> enough_threads e c -> takes_part e c k -> refuses e c k ->
  exists s, reachable e c g pp s /\ p_main s = MUnwind.
Proof.
  intros HS HE HT HR. apply (proj2 (takes_part_iff e c k HS HE)) in HT.
  assert (Z : zx_alone_unsupported e c = false).
  { destruct (zx_alone_unsupported e c) eqn:Z; [|reflexivity]. destruct (zx_alone_launch _ _ Z) as (E & _). rewrite E in HT. destruct HT. }
  assert (HX : exn_cause e (par_cfg e c) k) by (unfold exn_cause; rewrite ctor_par_cfg, ctor_throws_iff; exact HR).
  destruct (launch_run e (launches e c) (par_init e c g pp)) as (s1 & R1 & M1 & Q1 & D1 & C1 & _ & SL).
  { unfold par_init; simp. now rewrite Z. }
  { unfold par_init; simp. rewrite repeat_length, launches_fill by assumption. lia. }
  { intros i x _ Hx. unfold par_init in Hx; simp. now apply nth_error_repeat in Hx. }
  apply In_nth_error in HT. destruct HT as (i & Hi). specialize (SL _ _ Hi).
  change (p_queue (par_init e c g pp)) with (@nil nat) in Q1.
  assert (D1' : p_done s1 = false) by (rewrite D1; exact Z). change (p_cfg (par_init e c g pp)) with (par_cfg e c) in C1.
  change (p_next (par_init e c g pp) + i)%nat with i in SL.
  set (s2 := set_main MLoop s1).
  assert (R2 : pstep e AMain s1 = Some s2) by (cbn; unfold main_step; now rewrite M1).
  assert (P2 : p_main s2 = MLoop /\ p_queue s2 = [] /\ p_done s2 = false /\ p_cfg s2 = par_cfg e c /\
               nth_error (p_slots s2) i = Some (mkSlot None false (WStart k) false)) by (repeat split; assumption).
  assert (FIN : exists acts s3, prun e acts s2 = Some s3 /\ p_main s3 = MLoop /\ p_queue s3 = [] /\
            exists x, nth_error (p_slots s3) i = Some x /\ sl_w x = WPush /\ sl_exn x = true).
  { clearbody s2. clear R2. destruct P2 as (M2 & Q2 & D2 & C2 & S2).
    assert (L2 : live s2 = true) by (unfold live; now rewrite M2).
    destruct (ctor_throws e (par_cfg e c) k) eqn:CT.
    - exists [AWorker i], (set_slot i (mkSlot None false WPush true) s2).
      split; [|simp; repeat split; auto; eexists; split; [eapply upd_same; eauto|split; reflexivity]].
      erewrite prun_cons; [reflexivity|]. cbn. unfold worker_step. rewrite L2, S2. cbn [negb sl_w sl_chk]. rewrite C2, CT. reflexivity.
    - destruct HX as [?|[-> CH]]; [congruence|].
      set (ck := mkChecker (Stim:=Stim) KAlt NoInformation None).
      set (t1 := set_slot i (mkSlot (Some ck) false WRead false) s2).
      set (t2 := set_slot i (mkSlot (Some ck) false WRun false) t1).
      set (t3 := set_slot i (mkSlot (Some ck) false WPush true) t2).
      assert (S3 : nth_error (p_slots t1) i = Some (mkSlot (Some ck) false WRead false)) by (eapply upd_same; eauto).
      assert (S4 : nth_error (p_slots t2) i = Some (mkSlot (Some ck) false WRun false)) by (eapply upd_same; eauto).
      assert (S5 : nth_error (p_slots t3) i = Some (mkSlot (Some ck) false WPush true)) by (eapply upd_same; eauto).
      assert (K1 : pstep e (AWorker i) s2 = Some t1).
      { cbn. unfold worker_step. rewrite L2, S2. cbn [negb sl_w sl_chk]. rewrite C2, CT. reflexivity. }
      assert (K2 : pstep e (AWorker i) t1 = Some t2).
      { cbn. unfold worker_step. change (live t1) with (live s2). rewrite L2, S3. cbn [negb sl_w]. change (p_done t1) with (p_done s2). rewrite D2. reflexivity. }
      assert (K3 : pstep e (AWorker i) t2 = Some t3).
      { cbn. unfold worker_step. change (live t2) with (live s2). rewrite L2, S4. cbn [negb sl_w sl_chk k_kind ck]. rewrite CH. reflexivity. }
      exists [AWorker i; AWorker i; AWorker i], t3.
      rewrite (prun_cons _ _ _ _ _ K1), (prun_cons _ _ _ _ _ K2), (prun_cons _ _ _ _ _ K3). split; [reflexivity|].
      split; [exact M2|]. split; [exact Q2|]. eauto. }
  destruct FIN as (acts & s3 & R3 & M3 & Q3 & x & S3 & W3 & X3).
  set (s4 := set_queue (p_queue s3 ++ [i]) (set_slot i (slot_w WIdle x) s3)).
  assert (R4 : pstep e (AWorker i) s3 = Some s4).
  { cbn. unfold worker_step, live. rewrite M3, S3. cbn [negb]. now rewrite W3. }
  assert (S4 : nth_error (p_slots s4) i = Some (slot_w WIdle x)) by (eapply upd_same; eauto).
  assert (Q4 : p_queue s4 = [i]) by (unfold s4; simp; now rewrite Q3).
  set (s5 := set_main MUnwind (set_queue [] s4)).
  assert (R5 : pstep e AMain s4 = Some s5).
  { cbn. unfold main_step. change (p_main s4) with (p_main s3). rewrite M3, Q4, S4. cbn. now rewrite X3. }
  exists s5. split; [|reflexivity].
  exists (repeat AMain (length (launches e c)) ++ AMain :: acts ++ [AWorker i; AMain]).
  rewrite prun_app, R1, (prun_cons _ _ _ _ _ R2), prun_app, R3, (prun_cons _ _ _ _ _ R4), (prun_cons _ _ _ _ _ R5). reflexivity.
Qed.

Lemma reach_more e c g pp s acts s' : reachable e c g pp s -> prun e acts s = Some s' -> reachable e c g pp s'.
Proof. intros (a0 & H0) H. exists (a0 ++ acts). now rewrite prun_app, H0. Qed.

Theorem throw_possible_end e c g pp k : sane_sims c -> enough_threads e c -> takes_part e c k -> refuses e c k ->
  gen_supplies e g (maxSims (sim c)) -> (takes_part e c KZX -> e_zx_perm_ok e = true) ->
  exists s, reachable e c g pp s /\ p_main s = MThrown.
Proof.
  intros HS HE HT HR HG HZ. destruct (throw_possible e c g pp k HS HE HT HR) as (s & Rs & Ms).
  destruct (completes e s) as (acts & s' & H & ST). pose proof (reach_more _ _ _ _ _ _ _ Rs H) as R'. exists s'. split; [exact R'|].
  pose proof (unwind_stays e acts s s' ltac:(now rewrite Ms) H) as U.
  pose proof (reachable_all _ _ _ _ _ HS HE R') as AL.
  destruct (p_main s') eqn:EM; try discriminate; [|reflexivity|].
  - exfalso. destruct (stuck_shape e c g s' HG AL (budget_reachable _ _ _ _ _ R') ST) as (E & _); [unfold finished; now rewrite EM|]. congruence.
  - exfalso. destruct (xi_term _ _ _ (a_exn _ _ _ _ AL) EM) as (Hz & Hp). apply takes_part_iff in Hz; auto. rewrite (HZ Hz) in Hp. discriminate.
Qed.

(** *** every checker that takes part refuses *)
Definition ExnQ s : Prop :=
  match p_main s with
  | MLaunch _ | MLoop => forall i x, nth_error (p_slots s) i = Some x -> sl_w x = WIdle -> sl_exn x = true -> In i (p_queue s)
  | _ => True end.

Lemma exnq_worker e i s s' : ExnQ s -> worker_step e i s = Some s' \/ abort_step i s = Some s' -> ExnQ s'.
Proof.
  intros HQ H. unfold ExnQ in *.
  destruct H as [H|H].
  - unfold worker_step in H. destruct (live s) eqn:HL; cbn [negb] in H; [|discriminate].
    destruct (nth_error (p_slots s) i) as [x|] eqn:Hx; [|discriminate].
    assert (G : forall x', sl_w x' <> WIdle -> 
       match p_main s with MLaunch _ | MLoop => forall j y, nth_error (upd (p_slots s) i x') j = Some y -> sl_w y = WIdle -> sl_exn y = true -> In j (p_queue s) | _ => True end).
    { intros x' Hw. destruct (p_main s); auto; intros j y Hy Hwy He; apply upd_inv in Hy; destruct Hy as [(-> & -> & _)|(_ & Hy)]; eauto; contradiction. }
    destruct (sl_w x) eqn:Ew; try discriminate.
    + destruct (sl_chk x) as [ck|]; [injection H as <-; apply (G (slot_w _ x)); destruct k; discriminate|].
      destruct (ctor_throws e (p_cfg s) k); [injection H as <-; apply (G (mkSlot _ _ _ _)); discriminate|].
      destruct k; try (injection H as <-; apply (G (mkSlot _ _ _ _)); discriminate).
      destruct (e_zx_perm_ok e); injection H as <-; [apply (G (mkSlot _ _ _ _)); discriminate|exact I].
    + destruct (e_gen e (p_gen s)) as [[st g']|]; [|discriminate]. destruct (sl_chk x); [|discriminate].
      injection H as <-. apply (G (mkSlot _ _ _ _)); discriminate.
    + injection H as <-. apply (G (slot_w _ x)). destruct (p_done s); discriminate.
    + destruct (sl_chk x) as [ck|]; [|discriminate].
      destruct (k_kind ck), (e_canHandle e); injection H as <-; apply (G (mkSlot _ _ _ _)); discriminate.
    + injection H as <-. simp. destruct (p_main s); auto; intros j y Hy Hwy He; apply upd_inv in Hy; apply in_or_app;
        destruct Hy as [(-> & -> & _)|(_ & Hy)]; [right; now left|left; eauto|right; now left|left; eauto].
  - unfold abort_step in H. destruct (live s) eqn:HL; cbn [negb] in H; [|discriminate].
    destruct (nth_error (p_slots s) i) as [x|] eqn:Hx; [|discriminate].
    destruct (sl_w x); try discriminate. destruct (sl_chk x) as [ck|] eqn:Eck; [|discriminate]. destruct (sl_flag x); [|discriminate].
    injection H as <-. simp. destruct (p_main s); auto; intros j y Hy Hwy He; apply upd_inv in Hy;
        destruct Hy as [(-> & -> & _)|(_ & Hy)]; eauto; discriminate.
Qed.

Lemma exnq_step e c g a s s' : All e c g s -> ExnQ s -> pstep e a s = Some s' -> ExnQ s'.
Proof.
  intros AL HQ H. destruct a as [| |i|i]; cbn in H; [| |exact (exnq_worker e i s s' HQ (or_introl H))|exact (exnq_worker e i s s' HQ (or_intror H))].
  - unfold main_step in H. destruct (p_main s) as [[|k rest]| | j | | | | | | |] eqn:EM; try discriminate; unfold ExnQ in *; rewrite EM in HQ.
    + injection H as <-. simp. exact HQ.
    + destruct (nth_error (p_slots s) (p_next s)) as [x|] eqn:Hx; injection H as <-; simp; [|exact I].
      intros j y Hy Hwy He; apply upd_inv in Hy; destruct Hy as [(-> & -> & _)|(_ & Hy)]; eauto; discriminate.
    + destruct (p_queue s) as [|i q] eqn:EQ; [discriminate|].
      destruct (nth_error (p_slots s) i) as [x|] eqn:Hx; [|injection H as <-; exact I].
      destruct (is_idle x) eqn:Hid; cbn [negb] in H; [|discriminate].
      destruct (sl_exn x) eqn:Exn; [injection H as <-; exact I|].
      destruct (sl_chk x) as [ck|]; [|injection H as <-; exact I].
      assert (G : forall j y, nth_error (p_slots s) j = Some y -> sl_w y = WIdle -> sl_exn y = true -> In j q).
      { intros j y Hy Hwy He. destruct (HQ _ _ Hy Hwy He) as [->|]; auto. assert (y = x) by congruence. congruence. }
      destruct (handle (p_cfg s) (p_res s) (k_kind ck) (k_eq ck) (k_stim ck)) as [r|r|r]; injection H as <-; simp; rewrite ?EM; auto.
      intros j y Hy Hwy He; apply upd_inv in Hy; destruct Hy as [(-> & -> & _)|(_ & Hy)]; eauto; discriminate.
    + destruct (nth_error (p_slots s) j); injection H as <-; exact I.
    + destruct (forallb is_idle (p_slots s)); [|discriminate]. injection H as <-. simp. destruct (forallb has_chk (p_slots s)); exact I.
    + destruct (forallb is_idle (p_slots s)); [|discriminate]. injection H as <-. exact I.
  - unfold timeout_step in H. destruct (p_main s); try discriminate. destruct (p_queue s); [|discriminate].
    destruct (hasTimeout (p_cfg s)); [|discriminate]. injection H as <-. exact I.
Qed.

Lemma exnq_reachable e c g pp s : sane_sims c -> enough_threads e c -> reachable e c g pp s -> ExnQ s.
Proof.
  intros HS HE (acts & H).
  assert (P : All e c g s /\ ExnQ s); [|tauto].
  revert H. apply (prun_inv (fun s => All e c g s /\ ExnQ s)).
  - intros a s1 s2 [AL Q] H. split; [eapply all_step; eauto|eapply exnq_step; eauto].
  - split; [apply (reachable_all e c g pp); auto; exists []; reflexivity|].
    unfold ExnQ, par_init; simp. destruct (zx_alone_unsupported e c); [exact I|].
    intros i x Hx _ He. apply nth_error_repeat in Hx. subst. discriminate.
Qed.

Lemma onlyzx_none e c : onlyZXCheckerConfigured (par_cfg e c) = true -> forall k, In k (launches e c) -> k <> KZX -> False.
Proof.
  intros OZ k Hk N. pose proof (onlyzx_nosim e c OZ) as NS. apply in_launches in Hk as HI.
  unfold onlyZXCheckerConfigured, par_cfg in OZ.
  destruct k; try contradiction; destruct (zx_alone_unsupported e c); cbn in OZ; rewrite HI in OZ; cbn in OZ; rewrite ?andb_false_r in OZ; discriminate.
Qed.

Theorem all_refuse_throws e c g pp s : sane_sims c -> enough_threads e c -> hasTimeout c = false ->
  (exists k, takes_part e c k) -> (forall k, takes_part e c k -> refuses e c k) ->
  reachable e c g pp s -> stuck e s -> p_main s = MThrown.
Proof.
  intros HS HE HTO (k0 & HK0) HA HR ST.
  assert (HA' : forall k, In k (launches e c) -> exn_cause e (par_cfg e c) k).
  { intros k Hk. apply takes_part_iff in Hk; auto. apply HA in Hk. unfold exn_cause. rewrite ctor_par_cfg, ctor_throws_iff. exact Hk. }
  assert (HK : exists k, In k (launches e c)) by (exists k0; now apply takes_part_iff). clear k0 HK0 HA.
  assert (NZ : ~ In KZX (launches e c)) by (intros H; apply HA' in H; destruct H as [H|[H _]]; discriminate).
  pose proof (reachable_all _ _ _ _ _ HS HE HR) as AL. pose proof AL as [[FI FR FD FC] SI LI XI EL].
  destruct (ctor_reachable _ _ _ _ _ HR) as (CA & CB & CC). pose proof (exnq_reachable _ _ _ _ _ HS HE HR) as XQ.
  assert (Z : zx_alone_unsupported e c = false).
  { destruct (zx_alone_unsupported e c) eqn:Z; [|reflexivity]. destruct (zx_alone_launch _ _ Z) as (E & _). destruct HK as (k & Hk). rewrite E in Hk. destruct Hk. }
  assert (ND : decided (p_main s) = true -> False).
  { intros D. destruct (decided_reason _ _ _ _ AL D) as (r0 & log0 & HER & Hnat & _ & _ & _ & _ & HSR).
    assert (LOG : p_log s = []).
    { destruct (p_log s) as [|[[k q] st] l] eqn:El; [reflexivity|exfalso]. assert (Hin : In (k, q, st) (p_log s)) by (rewrite El; now left).
      rewrite <- ?El in CB, Hnat. rewrite Forall_forall in Hnat. pose proof (Hnat _ Hin) as (_ & _ & Hh).
      destruct (HA' k (log_kind _ _ _ _ _ _ _ AL Hin)) as [HX|[-> HX]].
      - rewrite <- FC in HX. rewrite (CB k q st Hin) in HX. discriminate.
      - rewrite Hh in HX by reflexivity. discriminate. }
    destruct (par_exec_flags e c) as (_ & _ & _ & TO).
    destruct HSR as [Er El HT'| Er El E OZc OZ' _|El CH Er|El Er|q El Hq Er|El Zz E1 E2 Er|q El Hq OZ|y El Hy Er|y q El Hy Hq HP' OS Er|y q El Hy Hq HP' OS EP Er];
      try (rewrite LOG in El; discriminate).
    - rewrite FC, TO in HT'. congruence.
    - destruct HK as (k & Hk). rewrite FC in OZ'. refine (onlyzx_none e c OZ' k Hk _). intros ->. exact (NZ Hk). }
  assert (NF : p_main s <> MTerminated).
  { intros EM. destruct (xi_term _ _ _ XI EM) as (Hz & _). contradiction. }
  pose proof (xi_oob _ _ _ XI) as NO.
  assert (LV : p_main s <> MThrown -> live s = true).
  { intros NT. unfold live. destruct (p_main s); try reflexivity; exfalso; (apply ND; reflexivity) || congruence. }
  assert (EN : p_main s = MThrown \/ p_main s <> MThrown) by (destruct (p_main s); (left; reflexivity) || (right; discriminate)).
  destruct EN as [E|NT]; [exact E|exfalso]. specialize (LV NT).
  assert (DN : p_done s = false).
  { pose proof (inv_done _ _ _ FI) as HD. destruct (p_main s) eqn:EM; try exact HD; exfalso; (apply ND; reflexivity) || congruence. }
  assert (Idle : forall i x, nth_error (p_slots s) i = Some x -> sl_w x = WIdle).
  { intros i x Hx. pose proof (ST (AWorker i)) as HW. cbn in HW. unfold worker_step in HW. rewrite LV in HW. cbn [negb] in HW.
    rewrite Hx in HW. pose proof (inv_slots _ _ _ FI _ _ Hx) as [[_ (k & Hk & (AA & _ & _ & D))]|[_ ->]]; [|reflexivity].
    destruct (sl_w x) as [|k'| | | |] eqn:Ew; auto; exfalso.
    - destruct (sl_chk x); [discriminate|]. destruct (ctor_throws e (p_cfg s) k'); [discriminate|].
      destruct k'; try discriminate. destruct (e_zx_perm_ok e); discriminate.
    - destruct D as (-> & Dc & _). destruct (sl_chk x) as [ck|] eqn:Eck; [|congruence].
      pose proof (CA _ _ _ Hx Eck) as F. rewrite (AA _ eq_refl), FC in F.
      destruct (HA' KSim (nth_error_In _ _ Hk)) as [HX|[HX _]]; [congruence|discriminate].
    - discriminate.
    - destruct D as ((ck & Dc & _) & _). rewrite Dc in HW. destruct (k_kind ck), (e_canHandle e); discriminate.
    - discriminate. }
  assert (FI' : forallb is_idle (p_slots s) = true).
  { apply forallb_forall. intros x Hin. apply In_nth_error in Hin. destruct Hin as (i & Hx). unfold is_idle. now rewrite (Idle _ _ Hx). }
  pose proof (ST AMain) as HM. cbn in HM. unfold main_step in HM.
  destruct (p_main s) as [[|k rest]| | j | | | | | | |] eqn:EM; try (apply ND; reflexivity); try congruence.
  - destruct (nth_error (p_slots s) (p_next s)); discriminate.
  - destruct (p_queue s) as [|i q] eqn:EQ.
    + destruct HK as (k & Hk). apply In_nth_error in Hk. destruct Hk as (i & Hi).
      assert (Hl : (i < length (p_slots s))%nat) by (rewrite <- EL; apply nth_error_Some; congruence).
      destruct (nth_error (p_slots s) i) as [x|] eqn:Hx; [|apply nth_error_None in Hx; lia].
      pose proof (xi_next _ _ _ XI) as XN. rewrite EM in XN.
      pose proof (inv_slots _ _ _ FI _ _ Hx) as [[_ (k' & Hk' & (AA & _ & _ & D))]|[? _]]; [|lia].
      assert (k' = k) as -> by congruence. pose proof (Idle _ _ Hx) as Ew. rewrite Ew in D. destruct D as [D _].
      unfold ExnQ in XQ. rewrite EM, EQ in XQ.
      destruct (D DN) as [Hexn|(ck & Eck & _ & Hh)]; [exact (XQ _ _ Hx Ew Hexn)|].
      rewrite (AA _ Eck) in Hh. pose proof (CA _ _ _ Hx Eck) as F. rewrite (AA _ Eck), FC in F.
      destruct (HA' k (nth_error_In _ _ Hi)) as [HX|[-> HX]]; [congruence|]. rewrite Hh in HX by reflexivity. discriminate.
    + destruct (inv_queue _ _ _ FI i) as (Hlt & x & Hx & Hw); [rewrite EQ; now left|].
      rewrite Hx in HM. unfold is_idle in HM. rewrite Hw in HM. cbn in HM.
      destruct (sl_exn x); [discriminate|]. destruct (sl_chk x); [|discriminate].
      destruct (handle _ _ _ _ _); discriminate.
  - rewrite FI' in HM. discriminate.
Qed.
End Proofs.
