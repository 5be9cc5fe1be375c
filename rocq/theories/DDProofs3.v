(** Cancellation: a run that was not cancelled at its last look at the flag is the uncancelled run. *)
From Coq Require Import List Bool NArith Arith Lia.
From Verif Require Import Criterion Schemes DDCheck DDSpec DDProofs DDProofs2.
Import ListNotations.

Section P.
Context {Ph Lg G M ST : Type}.
Variables (pheq : Ph -> Ph -> bool) (lgeq : Lg -> Lg -> bool) (pk : pkg Ph Lg G M) (gswapt : G -> bool) (geqb : G -> G -> bool)
          (view : op Ph G -> opview) (k : chk M ST) (sch : appscheme) (zero : Ph) (c1 c2 : circuit Ph Lg G)
          (ra1 ra2 rg1 rg2 : ST -> ST) (part : bool) (check : ST -> criterion).
Notation xst := (xst Ph Lg G M ST).
Notation xtick := (x_tick Ph Lg G M ST).
Notation execute := (execute Ph Lg G M pheq pk gswapt geqb view ST k sch).
Notation finish := (finish Ph Lg G M pheq pk gswapt ST k).
Notation postprocess d := (postprocess Ph Lg G M pheq lgeq pk ST k d zero c1 c2 ra1 ra2 rg1 rg2 part).
Notation run d := (run Ph Lg G M pheq lgeq pk gswapt geqb view ST k sch d zero c1 c2 ra1 ra2 rg1 rg2 part check).

Lemma on1_tick f (x : xst) : xtick (on1 _ _ _ _ _ f x) = xtick x.
Proof. unfold on1. destruct (f _ _). reflexivity. Qed.
Lemma on2_tick f (x : xst) : xtick (on2 _ _ _ _ _ f x) = xtick x.
Proof. unfold on2. destruct (f _ _). reflexivity. Qed.
Lemma cache1_tick (x : xst) : xtick (snd (cache1 _ _ _ _ pheq pk _ x)) = xtick x.
Proof. unfold cache1. destruct (x_c1 _ _ _ _ _ x); [reflexivity|]. destruct (t_rest _ _ _ _); [reflexivity|]. destruct (getDD _ _ _ _ _ _ _ _ _). reflexivity. Qed.
Lemma cache2_tick (x : xst) : xtick (snd (cache2 _ _ _ _ pheq pk _ x)) = xtick x.
Proof. unfold cache2. destruct (x_c2 _ _ _ _ _ x); [reflexivity|]. destruct (t_rest _ _ _ _); [reflexivity|]. destruct (getDD _ _ _ _ _ _ _ _ _). reflexivity. Qed.
Lemma query_tick (x : xst) : xtick (snd (query _ _ _ _ pheq pk view _ k sch x)) = xtick x.
Proof.
  unfold query. destruct sch; try reflexivity; try (destruct (t_rest _ _ _ _); reflexivity). cbn [snd]. unfold lookahead.
  pose proof (cache1_tick x) as H1. destruct (cache1 _ _ _ _ _ _ _ x) as [m1 x1]. pose proof (cache2_tick x1) as H2.
  destruct (cache2 _ _ _ _ _ _ _ x1) as [m2 x2]. cbn [snd] in *. destruct (_ <=? _)%N; cbn [x_tick]; congruence.
Qed.

Lemma done_eq (b : bool) (A : Type) (u v : A) : b = false -> (if b then u else v) = v.
Proof. now intros ->. Qed.

Lemma execute_agree done fuel x y : execute done fuel x = Some y ->
  xtick x <= xtick y /\ ((forall j, xtick x <= j < xtick y -> done j = false) -> execute never fuel x = Some y).
Proof.
  revert x. induction fuel as [|f IH]; intros x H; [discriminate|]. cbn [DDCheck.execute] in *.
  destruct (negb (both_left _ _ _ _ _ x)); [injection H as <-; auto|].
  unfold isDone at 1 in H. unfold isDone at 1. unfold never at 1. destruct (done (xtick x)) eqn:E0.
  { injection H as <-. cbn [x_tick]. split; [lia|]. intros HD. rewrite HD in E0 by lia. discriminate. }
  set (x0 := mkX _ _ _ _ _ _ _ _ _ _ (S (xtick x))) in *. set (x2 := swaps2 _ _ _ _ _ _ _ _ _ (swaps1 _ _ _ _ _ _ _ _ _ x0)) in *.
  assert (K2 : xtick x2 = S (xtick x)) by (unfold x2, swaps2, swaps1; rewrite on2_tick, on1_tick; reflexivity).
  destruct (negb (both_left _ _ _ _ _ x2)).
  { destruct (IH _ H) as [L A]. split; [lia|]. intros HD. apply A. intros j Hj. apply HD. lia. }
  unfold isDone at 1 in H. unfold isDone at 1. unfold never at 1. destruct (done (xtick x2)) eqn:E2.
  { destruct (IH _ H) as [L A]. cbn [x_tick] in L. split; [lia|]. intros HD. rewrite HD in E2 by lia. discriminate. }
  set (x3 := mkX _ _ _ _ _ _ _ _ _ _ (S (xtick x2))) in *. assert (K3 : xtick x3 = S (xtick x2)) by reflexivity.
  destruct (k_isid _ _ k _ && _ && _).
  { destruct (IH _ H) as [L A]. cbn [x_tick] in L. split; [lia|]. intros HD. apply A. intros j Hj. apply HD. cbn [x_tick] in Hj. lia. }
  pose proof (query_tick x3) as KQ. destruct (query _ _ _ _ _ _ _ _ _ _ x3) as [[a1 a2] x4]. cbn [snd] in KQ.
  unfold isDone at 1 in H. unfold isDone at 1. unfold never at 1.
  set (x4' := mkX _ _ _ _ _ _ _ _ _ _ (S (xtick x4))) in *. assert (K4 : xtick x4' = S (xtick x4)) by reflexivity.
  destruct (done (xtick x4)) eqn:E4.
  { cbn [isDone] in H. unfold isDone in H. destruct (done (xtick x4')) eqn:E5.
    - destruct (IH _ H) as [L A]. cbn [x_tick] in L. split; [lia|]. intros HD. rewrite HD in E4 by lia. discriminate.
    - destruct (IH _ H) as [L A]. unfold advance2 in L. rewrite on2_tick in L. cbn [x_tick] in L. split; [lia|]. intros HD. rewrite HD in E4 by lia. discriminate. }
  set (x5 := advance1 _ _ _ _ _ _ _ _ _ a1 x4') in *. assert (K5 : xtick x5 = xtick x4') by (unfold x5, advance1; apply on1_tick).
  unfold isDone in H. unfold isDone, never. destruct (done (xtick x5)) eqn:E5.
  { destruct (IH _ H) as [L A]. cbn [x_tick] in L. split; [lia|]. intros HD. rewrite HD in E5 by lia. discriminate. }
  destruct (IH _ H) as [L A]. unfold advance2 in L. rewrite on2_tick in L. cbn [x_tick] in L. split; [lia|]. intros HD. apply A.
  intros j Hj. apply HD. unfold advance2 in Hj. rewrite on2_tick in Hj. cbn [x_tick] in Hj. lia.
Qed.

Lemma finish_agree done x : xtick x <= xtick (finish done x) /\
  ((forall j, xtick x <= j < xtick (finish done x) -> done j = false) -> finish never x = finish done x).
Proof.
  unfold DDCheck.finish. destruct (k_alt _ _ k).
  - cbn [isDone]. unfold isDone, never. set (x1 := finish1 _ _ _ _ _ _ _ _ _ x). assert (K1 : xtick x1 = xtick x) by apply on1_tick.
    destruct (done (xtick x1)) eqn:E1; cbn [x_tick]; [split; [lia|]; intros HD; rewrite HD in E1 by lia; discriminate|].
    unfold finish2. rewrite on2_tick. cbn [x_tick]. split; [lia|]. reflexivity.
  - unfold isDone at 2 4 6 8. unfold never at 2. destruct (done (xtick x)) eqn:E0.
    + unfold isDone. cbn [x_tick]. destruct (done (S (xtick x))) eqn:E1; cbn [x_tick].
      * split; [lia|]. intros HD. rewrite HD in E0 by lia. discriminate.
      * unfold finish2. rewrite on2_tick. cbn [x_tick]. split; [lia|]. intros HD. rewrite HD in E0 by lia. discriminate.
    + set (x0 := mkX _ _ _ _ _ _ _ _ _ _ (S (xtick x))). set (x1 := finish1 _ _ _ _ _ _ _ _ _ x0).
      assert (K1 : xtick x1 = S (xtick x)) by (unfold x1, finish1; rewrite on1_tick; reflexivity).
      unfold isDone, never. destruct (done (xtick x1)) eqn:E1; cbn [x_tick].
      * split; [lia|]. intros HD. rewrite HD in E1 by lia. discriminate.
      * unfold finish2. rewrite on2_tick. cbn [x_tick]. split; [lia|reflexivity].
Qed.

Lemma chperm1_tick x y : chperm1 Ph Lg G M pheq lgeq pk ST k zero c1 x = Some y -> xtick y = xtick x.
Proof. unfold chperm1. destruct (changePermutation _ _ _ _ _ _ _ _ _ _ _ _ _ _) as [[p s]|]; [|discriminate]. intros H. now injection H as <-. Qed.
Lemma chperm2_tick x y : chperm2 Ph Lg G M pheq lgeq pk ST k zero c2 x = Some y -> xtick y = xtick x.
Proof. unfold chperm2. destruct (changePermutation _ _ _ _ _ _ _ _ _ _ _ _ _ _) as [[p s]|]; [|discriminate]. intros H. now injection H as <-. Qed.

Lemma task_agree done (ch : xst -> option xst) ra rg x y : (forall x y, ch x = Some y -> xtick y = xtick x) ->
  postprocessTask Ph Lg G M ST done part ch ra rg x = Some y ->
  xtick x <= xtick y /\ ((forall j, xtick x <= j < xtick y -> done j = false) -> postprocessTask Ph Lg G M ST never part ch ra rg x = Some y).
Proof.
  intros HC H. unfold postprocessTask in *. destruct (ch x) as [x1|] eqn:E; [|discriminate]. apply HC in E. unfold isDone at 1 in H. unfold isDone at 1. unfold never at 1.
  destruct (done (xtick x1)) eqn:E1.
  { injection H as <-. cbn [x_tick]. split; [lia|]. intros HD. rewrite HD in E1 by lia. discriminate. }
  unfold isDone, on_state, never in *. cbn [x_tick x_s x_t1 x_t2 x_c1 x_c2] in *. destruct (done (S (xtick x1))) eqn:E2.
  { injection H as <-. cbn [x_tick]. split; [lia|]. intros HD. rewrite HD in E2 by lia. discriminate. }
  split; [|intros _; exact H]. destruct part; injection H as <-; cbn [x_tick]; lia.
Qed.

Lemma post_agree done x y : postprocess done x = Some y ->
  xtick x <= xtick y /\ ((forall j, xtick x <= j < xtick y -> done j = false) -> postprocess never x = Some y).
Proof.
  unfold DDCheck.postprocess. destruct (k_alt _ _ k).
  - unfold alt_postprocess. intros H. destruct (chperm1 _ _ _ _ _ _ _ _ _ _ _ x) as [x1|] eqn:E; [|discriminate]. apply chperm1_tick in E.
    unfold isDone, never in *. destruct (done (xtick x1)) eqn:E1.
    + injection H as <-. cbn [x_tick]. split; [lia|]. intros HD. rewrite HD in E1 by lia. discriminate.
    + split; [|intros _; exact H]. apply chperm2_tick in H. cbn [x_tick] in H. lia.
  - unfold base_postprocess. intros H. unfold isDone at 1 in H. unfold isDone at 1. unfold never at 1. set (x0 := mkX _ _ _ _ _ _ _ _ _ _ (S (xtick x))) in *.
    assert (K0 : xtick x0 = S (xtick x)) by reflexivity.
    destruct (done (xtick x)) eqn:E0.
    + assert (L : xtick x < xtick y).
      { unfold isDone in H. destruct (done (xtick x0)); [injection H as <-; cbn; lia|].
        apply task_agree in H; [|exact chperm2_tick]. cbn [x_tick] in H. lia. }
      split; [lia|]. intros HD. rewrite HD in E0 by lia. discriminate.
    + destruct (postprocessTask _ _ _ _ _ done part (chperm1 _ _ _ _ _ _ _ _ _ _ _) _ _ _) as [x1|] eqn:E1; [|discriminate].
      apply task_agree in E1; [|exact chperm1_tick]. destruct E1 as [L1 A1].
      unfold isDone at 1 in H. destruct (done (xtick x1)) eqn:ED.
      * injection H as <-. cbn [x_tick]. split; [lia|]. intros HD. rewrite HD in ED by lia. discriminate.
      * apply task_agree in H; [|exact chperm2_tick]. destruct H as [L2 A2]. cbn [x_tick] in L2. split; [lia|]. intros HD.
        rewrite A1 by (intros j Hj; apply HD; lia). unfold isDone at 1. unfold never at 1. apply A2. intros j Hj. apply HD. cbn [x_tick] in Hj. lia.
Qed.

Lemma mono_le done j t : monotone done -> j <= t -> done t = false -> done j = false.
Proof.
  intros HM HL. induction HL as [|t HL IH]; [auto|]. intros H. apply IH. destruct (done t) eqn:E; [|reflexivity]. apply HM in E. congruence.
Qed.

Theorem run_cancelled done s0 old c y : monotone done -> run done s0 old = RVerdict _ _ _ _ _ c y ->
  (done (Nat.pred (xtick y)) = true /\ c = old) \/
  (done (Nat.pred (xtick y)) = false /\ run never s0 old = RVerdict _ _ _ _ _ c y).
Proof.
  intros HM H. unfold DDCheck.run in *. destruct (execute done _ _) as [x|] eqn:E; [|discriminate].
  destruct (postprocess done (finish done x)) as [z|] eqn:EP; [|discriminate]. unfold isDone in H.
  destruct (done (xtick z)) eqn:ED.
  - left. injection H as <- <-. cbn [x_tick Nat.pred]. auto.
  - right. injection H as <- <-. cbn [x_tick Nat.pred]. split; [exact ED|].
    destruct (execute_agree _ _ _ _ E) as [L1 A1]. destruct (finish_agree done x) as [L2 A2]. destruct (post_agree _ _ _ EP) as [L3 A3].
    assert (HA : forall j, j <= xtick z -> done j = false) by (intros j Hj; eapply mono_le; eassumption).
    rewrite A1 by (intros; apply HA; lia). rewrite A2 by (intros; apply HA; lia). rewrite A3 by (intros; apply HA; lia). reflexivity.
Qed.

Theorem run_cancelled_iff done s0 old c y : monotone done -> run done s0 old = RVerdict _ _ _ _ _ c y ->
  done (Nat.pred (xtick y)) = true -> c = old.
Proof. intros HM H HD. destruct (run_cancelled _ _ _ _ _ HM H) as [[_ E]|[E _]]; congruence. Qed.
End P.
