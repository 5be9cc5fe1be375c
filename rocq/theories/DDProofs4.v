(** Progress of the main loop for every scheme and every identity test; all gates are used; a log of the applied gates. *)
From Coq Require Import List Bool NArith Arith Lia.
From Verif Require Import Criterion Schemes SchemesProofs2 DDCheck DDSpec DDProofs DDProofs2 DDProofs3.
Import ListNotations.

Section P.
Context {Ph Lg G M ST : Type}.
Variables (pheq : Ph -> Ph -> bool) (lgeq : Lg -> Lg -> bool) (pk : pkg Ph Lg G M) (gswapt : G -> bool) (geqb : G -> G -> bool)
          (view : op Ph G -> opview) (k : chk M ST) (sch : appscheme) (zero : Ph) (c1 c2 : circuit Ph Lg G)
          (ra1 ra2 rg1 rg2 : ST -> ST) (part : bool) (check : ST -> criterion).
Notation xst := (xst Ph Lg G M ST).
Notation xt1 := (x_t1 Ph Lg G M ST).
Notation xt2 := (x_t2 Ph Lg G M ST).
Notation xtick := (x_tick Ph Lg G M ST).
Notation rest := (t_rest Ph Lg G).
Notation fin := (finished Ph Lg G).
Notation r1 x := (length (rest (xt1 x))).
Notation r2 x := (length (rest (xt2 x))).
Notation execute := (execute Ph Lg G M pheq pk gswapt geqb view ST k sch).
Notation finish := (finish Ph Lg G M pheq pk gswapt ST k).
Notation postprocess d := (postprocess Ph Lg G M pheq lgeq pk ST k d zero c1 c2 ra1 ra2 rg1 rg2 part).
Notation run d := (run Ph Lg G M pheq lgeq pk gswapt geqb view ST k sch d zero c1 c2 ra1 ra2 rg1 rg2 part check).

Lemma swaps1_len (x : xst) : r1 (swaps1 Ph Lg G M pheq pk gswapt ST k x) <= r1 x /\ xt2 (swaps1 Ph Lg G M pheq pk gswapt ST k x) = xt2 x.
Proof.
  unfold swaps1, on1. destruct (applySwapOperations _ _ _ _ _ _ _ _ _ _ (xt1 x) _) as [t s] eqn:E.
  destruct (swapops_value _ _ _ _ _ _ _ _ _ E) as (_ & A & _). cbn [x_t1 x_t2]. split; [eapply ahead_len; exact A|reflexivity].
Qed.
Lemma swaps2_len (x : xst) : r2 (swaps2 Ph Lg G M pheq pk gswapt ST k x) <= r2 x /\ xt1 (swaps2 Ph Lg G M pheq pk gswapt ST k x) = xt1 x.
Proof.
  unfold swaps2, on2. destruct (applySwapOperations _ _ _ _ _ _ _ _ _ _ (xt2 x) _) as [t s] eqn:E.
  destruct (swapops_value _ _ _ _ _ _ _ _ _ E) as (_ & A & _). cbn [x_t1 x_t2]. split; [eapply ahead_len; exact A|reflexivity].
Qed.
Lemma adv1_len n (x : xst) : r1 (advance1 Ph Lg G M pheq pk gswapt ST k n x) <= r1 x /\
  (n <> 0%N -> fin (xt1 x) = false -> r1 (advance1 Ph Lg G M pheq pk gswapt ST k n x) < r1 x) /\
  xt2 (advance1 Ph Lg G M pheq pk gswapt ST k n x) = xt2 x.
Proof.
  unfold advance1, on1, advance. destruct (advance_fuel _ _ _ _ _ _ _ _ _ _ _ n (xt1 x) _) as [t s] eqn:E.
  destruct (advance_value _ _ _ _ _ _ _ _ _ _ _ E) as (_ & A & N). cbn [x_t1 x_t2]. split; [eapply ahead_len; exact A|]. split; [|reflexivity].
  intros HN HF. apply N; auto. unfold fin in HF. destruct (rest (xt1 x)); [discriminate|cbn; lia].
Qed.
Lemma adv2_len n (x : xst) : r2 (advance2 Ph Lg G M pheq pk gswapt ST k n x) <= r2 x /\
  xt1 (advance2 Ph Lg G M pheq pk gswapt ST k n x) = xt1 x.
Proof.
  unfold advance2, on2, advance. destruct (advance_fuel _ _ _ _ _ _ _ _ _ _ _ n (xt2 x) _) as [t s] eqn:E.
  destruct (advance_value _ _ _ _ _ _ _ _ _ _ _ E) as (_ & A & N). cbn [x_t1 x_t2]. split; [eapply ahead_len; exact A|reflexivity].
Qed.
Lemma cache1_len (x : xst) : rest (xt1 (snd (cache1 Ph Lg G M pheq pk ST x))) = rest (xt1 x) /\ xt2 (snd (cache1 Ph Lg G M pheq pk ST x)) = xt2 x.
Proof. unfold cache1. destruct (x_c1 _ _ _ _ _ x); [auto|]. destruct (rest (xt1 x)) eqn:E; [cbn; auto|]. destruct (getDD _ _ _ _ _ _ _ _ _). cbn. auto. Qed.
Lemma cache2_len (x : xst) : rest (xt2 (snd (cache2 Ph Lg G M pheq pk ST x))) = rest (xt2 x) /\ xt1 (snd (cache2 Ph Lg G M pheq pk ST x)) = xt1 x.
Proof. unfold cache2. destruct (x_c2 _ _ _ _ _ x); [auto|]. destruct (rest (xt2 x)) eqn:E; [cbn; auto|]. destruct (getDD _ _ _ _ _ _ _ _ _). cbn. auto. Qed.
Lemma lookahead_len (x : xst) : r1 x <> 0 -> r2 x <> 0 -> let y := lookahead Ph Lg G M pheq pk ST k x in r1 y + r2 y < r1 x + r2 x /\ r1 y <= r1 x.
Proof.
  intros H1 H2. cbv zeta. unfold lookahead. pose proof (cache1_len x) as [A1 A2]. destruct (cache1 _ _ _ _ _ _ _ x) as [m1 x1].
  pose proof (cache2_len x1) as [B1 B2]. destruct (cache2 _ _ _ _ _ _ _ x1) as [m2 x2]. cbn [snd] in *.
  destruct (_ <=? _)%N; cbn [x_t1 x_t2 advanceIterator t_rest].
  - rewrite B1, A2, B2, A1. destruct (rest (xt1 x)); cbn in *; lia.
  - rewrite B1, A2, B2, A1. destruct (rest (xt2 x)); cbn in *; lia.
Qed.

Hypothesis sch_ok : scheme_for c1 c2 sch.
Lemma query_len (x : xst) a1 a2 y : r1 x <> 0 -> r2 x <> 0 -> r1 x <= length (c_ops _ _ _ c1) ->
  query Ph Lg G M pheq pk view ST k sch x = ((a1, a2), y) ->
  r1 y <= r1 x /\ ((y = x /\ a1 <> 0%N) \/ r1 y + r2 y < r1 x + r2 x).
Proof.
  intros H1 H2 HL H. unfold query in H. pose proof sch_ok as HS. pose proof (lookahead_len x H1 H2) as HLA. clear sch_ok. cbv zeta in HLA.
  destruct (rest (xt1 x)) as [|o r] eqn:R1; [cbn in H1; lia|]. destruct sch as [n1 n2| |fu|tb fu|].
  - injection H as <- <- <-. split; [rewrite ?R1; cbn; lia|]. left. split; [reflexivity|]. destruct HS as [-> _]. cbn in HL. lia.
  - injection H as <- <- <-. split; [rewrite ?R1; cbn; lia|]. left. split; [reflexivity|discriminate].
  - destruct (proportional_pos fu (view o) (N.of_nat (length (o :: r))) (N.of_nat (length (rest (xt2 x))))) as [HQ _].
    destruct (proportional_scheme fu (view o) _ _) as [b1 b2]. injection H as <- <- <-. split; [rewrite ?R1; cbn; lia|]. left. split; [reflexivity|]. cbn in HQ. lia.
  - pose proof (gatecost_pos tb fu (view o)) as HQ. destruct (gatecost_scheme tb fu (view o)) as [b1 b2].
    injection H as <- <- <-. split; [rewrite ?R1; cbn; lia|]. left. split; [reflexivity|]. cbn in HQ. lia.
  - injection H as <- <- <-. destruct HLA as [P Q]. rewrite ?R1 in *. split; [exact Q|]. right. exact P.
Qed.

(** every iteration uses up a gate *)
Lemma execute_bound fuel (x : xst) : r1 x <= length (c_ops _ _ _ c1) -> r1 x + r2 x < fuel -> execute never fuel x <> None.
Proof.
  revert x. induction fuel as [|f IH]; intros x HO HF; [lia|]. cbn [DDCheck.execute].
  destruct (negb (both_left _ _ _ _ _ x)) eqn:EB; [discriminate|]. cbn [isDone never].
  set (x0 := mkX _ _ _ _ _ _ _ _ _ _ _). set (x1 := swaps2 _ _ _ _ _ _ _ _ _ _).
  assert (L : r1 x1 <= r1 x /\ r2 x1 <= r2 x).
  { unfold x1. destruct (swaps2_len (swaps1 Ph Lg G M pheq pk gswapt ST k x0)) as [A A']. destruct (swaps1_len x0) as [B B'].
    rewrite A'. rewrite B' in A. cbn [x0 x_t1 x_t2] in *. lia. }
  apply negb_false_iff in EB. apply both_left_spec in EB. destruct EB as [F1 F2].
  destruct (negb (both_left _ _ _ _ _ x1)) eqn:EB1.
  - apply negb_true_iff in EB1. unfold both_left in EB1. apply andb_false_iff in EB1.
    apply IH; [lia|]. assert (HN : r1 x <> 0 /\ r2 x <> 0).
    { unfold fin in F1, F2. destruct (rest (xt1 x)); [discriminate|]. destruct (rest (xt2 x)); [discriminate|]. cbn. lia. }
    unfold fin in EB1. destruct EB1 as [E|E]; apply negb_false_iff in E; [destruct (rest (xt1 x1))|destruct (rest (xt2 x1))]; try discriminate; cbn [length] in *; lia.
  - apply negb_false_iff in EB1. apply both_left_spec in EB1. destruct EB1 as [G1 G2].
    assert (HN : r1 x1 <> 0 /\ r2 x1 <> 0).
    { unfold fin in G1, G2. destruct (rest (xt1 x1)); [discriminate|]. destruct (rest (xt2 x1)); [discriminate|]. cbn. lia. }
    cbn [isDone never]. set (x2 := mkX _ _ _ _ _ (x_s _ _ _ _ _ x1) (xt1 x1) _ _ _ _).
    destruct (_ && gatesAreIdentical _ _ _ _ _ _ _ _).
    + apply IH; cbn [x_t1 x_t2 advanceIterator t_rest]; change (xt1 x2) with (xt1 x1); change (xt2 x2) with (xt2 x1);
        destruct (rest (xt1 x1)), (rest (xt2 x1)); cbn in *; lia.
    + destruct (query _ _ _ _ _ _ _ _ _ _ x2) as [[a1 a2] x3] eqn:EQ.
      destruct (query_len x2 a1 a2 x3) as [Q1 Q2]; [exact (proj1 HN)|exact (proj2 HN)|exact (Nat.le_trans _ _ _ (proj1 L) HO)|exact EQ|].
      cbn [isDone never]. set (x4 := mkX _ _ _ _ _ (x_s _ _ _ _ _ x3) _ _ _ _ _).
      set (x5 := advance1 _ _ _ _ _ _ _ _ _ a1 x4). destruct (adv1_len a1 x4) as (A1 & A2 & A3). fold x5 in A1, A2, A3.
      set (x6 := mkX _ _ _ _ _ (x_s _ _ _ _ _ x5) _ _ _ _ _). destruct (adv2_len a2 x6) as [B1 B2].
      change (xt1 x4) with (xt1 x3) in *. change (xt2 x4) with (xt2 x3) in *. change (xt1 x6) with (xt1 x5) in *. change (xt2 x6) with (xt2 x5) in *.
      change (xt1 x2) with (xt1 x1) in *. change (xt2 x2) with (xt2 x1) in *.
      assert (HS : r1 x5 + r2 x5 < r1 x1 + r2 x1 \/ r1 x5 + r2 x5 < r1 x3 + r2 x3 /\ x3 = x2).
      { rewrite A3. destruct Q2 as [[-> Q2]|Q2]; [|left; lia]. right. split; [|reflexivity].
        specialize (A2 Q2 G1). change (xt1 x2) with (xt1 x1) in *. change (xt2 x2) with (xt2 x1) in *. lia. }
      assert (HS' : r1 x5 + r2 x5 < r1 x1 + r2 x1).
      { destruct HS as [HS|[HS ->]]; [exact HS|]. exact HS. }
      apply IH; rewrite B2; lia.
Qed.

(** ** a verdict is produced only after all operations of both circuits were used *)
Lemma finish1_rest (x : xst) : rest (xt1 (finish1 Ph Lg G M pheq pk gswapt ST k x)) = [].
Proof.
  unfold finish1, on1. destruct (tm_finish _ _ _ _ _ _ _ _ _ _ (xt1 x) _) as [t s] eqn:E. exact (proj1 (tm_finish_value _ _ _ _ _ _ _ _ _ E)).
Qed.
Lemma finish2_rest (x : xst) : rest (xt2 (finish2 Ph Lg G M pheq pk gswapt ST k x)) = [] /\ xt1 (finish2 Ph Lg G M pheq pk gswapt ST k x) = xt1 x.
Proof.
  unfold finish2, on2. destruct (tm_finish _ _ _ _ _ _ _ _ _ _ (xt2 x) _) as [t s] eqn:E. split; [exact (proj1 (tm_finish_value _ _ _ _ _ _ _ _ _ E))|reflexivity].
Qed.
Lemma finish_rest (x : xst) : rest (xt1 (finish never x)) = [] /\ rest (xt2 (finish never x)) = [].
Proof.
  unfold DDCheck.finish. destruct (k_alt _ _ k); cbn [isDone never].
  - match goal with |- context [finish2 _ _ _ _ _ _ _ _ _ ?q] => destruct (finish2_rest q) as [A B]; split; [rewrite B; cbn [x_t1]|exact A] end. apply finish1_rest.
  - match goal with |- context [finish2 _ _ _ _ _ _ _ _ _ ?q] => destruct (finish2_rest q) as [A B]; split; [rewrite B; cbn [x_t1]|exact A] end. apply finish1_rest.
Qed.
Lemma chperm1_rest x y : chperm1 Ph Lg G M pheq lgeq pk ST k zero c1 x = Some y -> rest (xt1 y) = rest (xt1 x) /\ rest (xt2 y) = rest (xt2 x).
Proof. unfold chperm1. destruct (changePermutation _ _ _ _ _ _ _ _ _ _ _ _ _ _) as [[p s]|]; [|discriminate]. intros H. injection H as <-. auto. Qed.
Lemma chperm2_rest x y : chperm2 Ph Lg G M pheq lgeq pk ST k zero c2 x = Some y -> rest (xt1 y) = rest (xt1 x) /\ rest (xt2 y) = rest (xt2 x).
Proof. unfold chperm2. destruct (changePermutation _ _ _ _ _ _ _ _ _ _ _ _ _ _) as [[p s]|]; [|discriminate]. intros H. injection H as <-. auto. Qed.
Lemma task_rest done ch ra rg x y : (forall x y, ch x = Some y -> rest (xt1 y) = rest (xt1 x) /\ rest (xt2 y) = rest (xt2 x)) ->
  postprocessTask Ph Lg G M ST done part ch ra rg x = Some y -> rest (xt1 y) = rest (xt1 x) /\ rest (xt2 y) = rest (xt2 x).
Proof.
  intros HC H. unfold postprocessTask, isDone in H. destruct (ch x) as [z|] eqn:E; [|discriminate]. apply HC in E.
  cbn [x_tick on_state] in H. destruct (done _); [injection H as <-; exact E|]. destruct (done _); [injection H as <-; exact E|].
  injection H as <-. destruct part; exact E.
Qed.
Lemma post_rest done x y : postprocess done x = Some y -> rest (xt1 y) = rest (xt1 x) /\ rest (xt2 y) = rest (xt2 x).
Proof.
  unfold DDCheck.postprocess. destruct (k_alt _ _ k).
  - unfold alt_postprocess. destruct (chperm1 _ _ _ _ _ _ _ _ _ _ _ x) as [z|] eqn:E; [|discriminate]. apply chperm1_rest in E. unfold isDone.
    destruct (done _); intros H; [injection H as <-; exact E|]. apply chperm2_rest in H. cbn [x_t1 x_t2] in H. destruct E, H. split; congruence.
  - unfold base_postprocess, isDone. intros H.
    match type of H with (match ?e with _ => _ end) = _ => destruct e as [z|] eqn:E; [|discriminate] end.
    assert (EZ : rest (xt1 z) = rest (xt1 x) /\ rest (xt2 z) = rest (xt2 x)).
    { destruct (done _) in E; [injection E as <-; auto|]. exact (task_rest _ _ _ _ _ _ chperm1_rest E). }
    destruct (done _) in H; [injection H as <-; exact EZ|]. pose proof (task_rest _ _ _ _ _ _ chperm2_rest H) as EY. cbn [x_t1 x_t2] in EY.
    destruct EZ, EY. split; congruence.
Qed.
Lemma run_rest s0 old c y : run never s0 old = RVerdict _ _ _ _ _ c y -> rest (xt1 y) = [] /\ rest (xt2 y) = [].
Proof.
  unfold DDCheck.run. destruct (execute never _ _) as [x|]; [|discriminate]. destruct (postprocess never (finish never x)) as [z|] eqn:E; [|discriminate].
  cbn [isDone]. unfold isDone. intros H. injection H as _ <-. cbn [x_t1 x_t2]. apply post_rest in E. destruct (finish_rest x) as [A B]. destruct E. split; congruence.
Qed.
End P.
