(** The parallel flow never draws more stimuli than simulations were started. *)
From Coq Require Import String List Bool NArith QArith Arith Lia.
From Verif Require Import Criterion Config SeqFlow SeqSpec SeqProofs ParFlow ParSpec ParProofs ParProofs2.
Import ListNotations.
Local Open Scope list_scope.

Section Proofs.
Context {Stim Gen : Type}.
Notation env := (env Stim Gen).
Notation pst := (pst Stim Gen).
Notation slot := (slot Stim).
Implicit Types (e : env) (s : pst) (c : config) (x : slot) (g : Gen).

Ltac simp := cbn [set_main set_next set_pres set_slot set_queue set_pgen add_log begin_signal set_pdone
   p_cfg p_slots p_queue p_done p_main p_next p_res p_gen p_log phase_signal] in *.

(** the worker will still draw a stimulus *)
Definition will_draw (x : slot) : bool := match sl_w x with WStart KSim | WDraw => true | _ => false end.
Definition todraw (l : list slot) : nat := length (filter will_draw l).
Definition b2n (b : bool) : nat := if b then 1%nat else 0%nat.

Lemma todraw_upd l i x x' : nth_error l i = Some x -> (todraw (upd l i x') + b2n (will_draw x) = todraw l + b2n (will_draw x'))%nat.
Proof.
  revert i. induction l as [|y l IH]; intros [|i]; cbn; try discriminate.
  - intros [= ->]. unfold todraw. cbn. destruct (will_draw x), (will_draw x'); cbn; lia.
  - intros H. specialize (IH i H). unfold todraw in *. cbn. destruct (will_draw y); cbn; lia.
Qed.

Definition Budget e g s : Prop :=
  exists l, draws e g l (p_gen s) /\ (N.of_nat (length l + todraw (p_slots s)) <= r_started (p_res s))%N.

Lemma handle_count c (r : results Stim) k q stm :
  match handle c r k q stm with Stop r' | Continue r' => r_started r' = r_started r | Restart r' => r_started r' = (r_started r + 1)%N end.
Proof.
  unfold handle. destruct q, k; cbn; auto;
  repeat match goal with |- context [if ?b then _ else _] => destruct b; cbn; auto end.
Qed.

Lemma budget_local e g s s' i x x' :
  Budget e g s -> nth_error (p_slots s) i = Some x -> p_slots s' = upd (p_slots s) i x' -> p_gen s' = p_gen s -> p_res s' = p_res s ->
  (will_draw x' = true -> will_draw x = true) -> Budget e g s'.
Proof.
  intros (l & Hd & HB) Hx E1 E2 E3 HW. exists l. rewrite E2, E1, E3. split; [exact Hd|].
  pose proof (todraw_upd (p_slots s) i x x' Hx) as T. destruct (will_draw x'); [rewrite HW in T by reflexivity|]; cbn [b2n] in T; unfold b2n in T; try destruct (will_draw x); lia.
Qed.

Lemma budget_step e g a s s' : Budget e g s -> pstep e a s = Some s' -> Budget e g s'.
Proof.
  intros B H. pose proof B as (l & Hd & HB). destruct a; cbn in H.
  - unfold main_step in H. destruct (p_main s) as [[|k ks]| |j| | | | | | |] eqn:EM; try discriminate.
    + injection H as <-. exact B.
    + destruct (nth_error (p_slots s) (p_next s)) as [x|] eqn:Hx; [|injection H as <-; exact B].
      injection H as <-. exists l. simp. split; [exact Hd|].
      pose proof (todraw_upd (p_slots s) (p_next s) x (mkSlot (sl_chk x) (sl_flag x) (WStart k) false) Hx) as T.
      destruct k; cbn [will_draw sl_w] in T; cbn [set_counts r_started]; unfold b2n in T; destruct (will_draw x); lia.
    + destruct (p_queue s) as [|i q]; [discriminate|]. destruct (nth_error (p_slots s) i) as [x|] eqn:Hx; [|injection H as <-; exact B].
      destruct (negb (is_idle x)) eqn:EI; [discriminate|]. destruct (sl_exn x); [injection H as <-; exact B|].
      destruct (sl_chk x) as [k|]; [|injection H as <-; exact B].
      pose proof (handle_count (p_cfg s) (p_res s) (k_kind k) (k_eq k) (k_stim k)) as HS.
      destruct (handle (p_cfg s) (p_res s) (k_kind k) (k_eq k) (k_stim k)) as [r|r|r]; injection H as <-; exists l; simp; (split; [exact Hd|]).
      * rewrite HS. exact HB.
      * rewrite HS. exact HB.
      * pose proof (todraw_upd (p_slots s) i x (slot_w (WStart KSim) x) Hx) as T. rewrite HS. unfold b2n in T.
        destruct (will_draw x), (will_draw (slot_w (WStart KSim) x)); lia.
    + destruct (nth_error (p_slots s) j) as [x|] eqn:Hx; [|injection H as <-; exact B]. injection H as <-.
      eapply (budget_local e g s _ j x) with (1 := B); simp; try reflexivity; [exact Hx|]. unfold will_draw. destruct (has_chk x); cbn [sl_w]; auto.
    + destruct (forallb is_idle (p_slots s)); [|discriminate]. injection H as <-. exact B.
    + destruct (forallb is_idle (p_slots s)); [|discriminate]. injection H as <-. exact B.
  - unfold timeout_step in H. destruct (p_main s); try discriminate. destruct (p_queue s); [|discriminate]. destruct (hasTimeout (p_cfg s)); [|discriminate].
    injection H as <-. exact B.
  - unfold worker_step in H. destruct (live s); cbn [negb] in H; [|discriminate].
    destruct (nth_error (p_slots s) i) as [x|] eqn:Ex; [|discriminate].
    destruct (sl_w x) as [|k'| | | |] eqn:Ew; try discriminate.
    + assert (L : forall x', s' = set_slot i x' s -> (will_draw x' = true -> k' = KSim) -> Budget e g s').
      { intros x' -> HW. eapply (budget_local e g s _ i x x'); eauto. intros W. unfold will_draw. rewrite Ew. now rewrite (HW W). }
      destruct (sl_chk x) as [ck|] eqn:Eck.
      { injection H as <-. eapply L; [reflexivity|]. unfold will_draw, slot_w. cbn. now destruct k'. }
      destruct (ctor_throws e (p_cfg s) k'); [injection H as <-; eapply L; [reflexivity|]; discriminate|].
      destruct k'; try (injection H as <-; eapply L; [reflexivity|]; unfold will_draw; cbn; auto; discriminate).
      destruct (e_zx_perm_ok e); [injection H as <-; eapply L; [reflexivity|]; discriminate|]. injection H as <-. exact B.
    + destruct (e_gen e (p_gen s)) as [[stm g']|] eqn:Eg; [|discriminate].
      destruct (sl_chk x) as [ck|] eqn:Eck; [|discriminate]. injection H as <-. exists (l ++ [stm]). simp. split.
      * eapply draws_app; [exact Hd|]. econstructor; [exact Eg|constructor].
      * match goal with |- context [upd (p_slots s) i ?y] => pose proof (todraw_upd (p_slots s) i x y Ex) as T end.
        rewrite app_length. unfold will_draw, b2n in T. rewrite Ew in T. cbn in *. lia.
    + injection H as <-. eapply (budget_local e g s _ i x) with (1 := B); simp; try reflexivity; [exact Ex|]. unfold will_draw, slot_w; cbn. destruct (p_done s); discriminate.
    + destruct (sl_chk x) as [ck|] eqn:Eck; [|discriminate].
      destruct (k_kind ck), (e_canHandle e); injection H as <-; (eapply (budget_local e g s _ i x) with (1 := B); simp; try reflexivity; [exact Ex|discriminate]).
    + injection H as <-. eapply (budget_local e g s _ i x) with (1 := B); simp; try reflexivity; [exact Ex|]. discriminate.
  - unfold abort_step in H. destruct (live s); cbn [negb] in H; [|discriminate].
    destruct (nth_error (p_slots s) i) as [x|] eqn:Ex; [|discriminate].
    destruct (sl_w x) as [|k'| | | |] eqn:Ew; try discriminate.
    destruct (sl_chk x) as [ck|] eqn:Eck; [|discriminate]. destruct (sl_flag x) eqn:Ef; [|discriminate].
    injection H as <-. eapply (budget_local e g s _ i x) with (1 := B); simp; try reflexivity; [exact Ex|]. discriminate.
Qed.

Lemma budget_init e c g pp : Budget e g (par_init e c g pp).
Proof.
  exists []. split; [constructor|]. unfold par_init. cbn [p_slots p_res r_started]. cbn [length].
  assert (E : todraw (repeat empty_slot (N.to_nat (effectiveThreads e c))) = O).
  { unfold todraw. induction (N.to_nat (effectiveThreads e c)); cbn; auto. }
  cbn [Nat.add]. rewrite E. cbn. lia.
Qed.

Lemma budget_reachable e c g pp s : reachable e c g pp s -> Budget e g s.
Proof. intros (acts & H). revert H. apply (prun_inv (Budget e g)); [|apply budget_init]. intros a s1 s2. apply budget_step. Qed.
End Proofs.
