(** Proofs for C80. *)
From Coq Require Import List Bool NArith Arith Lia.
From Verif Require Import Criterion Schemes DDCheck DDSpec DDProofs DDProofs2 DDProofs4 OrderSpec.
Import ListNotations.

Section G.
Context {M ST : Type}.
Variables (act1 act2 : M -> ST -> ST) (size : ST -> N).
Notation greedy := (greedy act1 act2 size).
Lemma greedy_det l1 l2 s r : greedy l1 l2 s r -> forall r', greedy l1 l2 s r' -> r = r'.
Proof.
  induction 1; intros r' H'; inversion H'; subst; auto; try contradiction; try lia; try reflexivity.
Qed.
Lemma greedy_total n : forall l1 l2 s, length l1 + length l2 <= n -> exists r, greedy l1 l2 s r.
Proof.
  induction n as [|n IH]; intros [|[b1 m1] l1] [|[b2 m2] l2] s H; cbn [length] in H; try lia; try (eexists; apply greedy_only2); try (eexists; apply greedy_only1).
  destruct b1.
  - destruct (IH l1 ((b2, m2) :: l2) (act1 m1 s)) as [r R]; [cbn; lia|]. exists r. apply greedy_swap1; [discriminate|exact R].
  - destruct b2.
    + destruct (IH ((false, m1) :: l1) l2 (act2 m2 s)) as [r R]; [cbn; lia|]. exists r. now apply greedy_swap2.
    + destruct (N.le_gt_cases (size (act1 m1 s)) (size (act2 m2 s))) as [L|L].
      * destruct (IH l1 ((false, m2) :: l2) (act1 m1 s)) as [r R]; [cbn; lia|]. exists r. now apply greedy_left.
      * destruct (IH ((false, m1) :: l1) l2 (act2 m2 s)) as [r R]; [cbn; lia|]. exists r. now apply greedy_right.
Qed.
Lemma all_of_app act (a b : list (bool * M)) (s : ST) : all_of act (a ++ b) s = all_of act b (all_of act a s).
Proof. apply fold_left_app. Qed.
Lemma greedy_swaps1 sw l1 l2 s r : Forall (fun e => fst e = true) sw -> l2 <> [] -> greedy l1 l2 (all_of act1 sw s) r -> greedy (sw ++ l1) l2 s r.
Proof.
  intros F N. revert s. induction F as [|[b m] sw E F IH]; intros s H; [exact H|]. cbn in E. subst b. cbn [app]. apply greedy_swap1; [exact N|].
  apply IH. exact H.
Qed.
Lemma greedy_swaps2 sw l1 l2 s r : Forall (fun e => fst e = true) sw ->
  match l1 with [] => True | e :: _ => fst e = false end -> greedy l1 l2 (all_of act2 sw s) r -> greedy l1 (sw ++ l2) s r.
Proof.
  intros F N. destruct l1 as [|[b m1] l1].
  - intros H. inversion H; subst; [rewrite <- all_of_app; apply greedy_only2|]. cbn [all_of fold_left].
    rewrite app_nil_r. apply greedy_only2.
  - cbn in N. subst b. revert s. induction F as [|[b m] sw E F IH]; intros s H; [exact H|]. cbn in E. subst b. cbn [app].
    apply greedy_swap2. apply IH. exact H.
Qed.
End G.

Section P.
Context {Ph Lg G M ST : Type}.
Variables (pheq : Ph -> Ph -> bool) (lgeq : Lg -> Lg -> bool) (pk : pkg Ph Lg G M) (gswapt : G -> bool) (geqb : G -> G -> bool)
          (view : op Ph G -> opview).
Notation tm := (tm Ph Lg G).
Notation getDD := (getDD Ph Lg G M pheq pk).
Notation trace := (trace pheq pk).
Notation rest := (t_rest Ph Lg G).
Notation tperm := (t_perm Ph Lg G).
Notation is_swap := (is_swap Ph G gswapt).
Notation marked := (marked pheq pk gswapt).
Notation todo inv t := (marked inv (rest t) (tperm t)).

Lemma marked_trace inv l p : map snd (marked inv l p) = fst (trace inv l p).
Proof. revert p. induction l as [|o l IH]; intros p; [reflexivity|]. cbn [OrderSpec.marked DDSpec.trace]. destruct (getDD inv o p) as [m p']. cbn [map snd]. rewrite IH. destruct (trace inv l p'). reflexivity. Qed.
Lemma marked_nil inv l p : l <> [] <-> marked inv l p <> [].
Proof. destruct l as [|o l]; cbn [OrderSpec.marked]; [split; congruence|]. destruct (getDD inv o p). split; discriminate. Qed.
Lemma all_of_marked (act : M -> ST -> ST) inv l p s : acts act (fst (trace inv l p)) s = all_of act (marked inv l p) s.
Proof. rewrite <- marked_trace. unfold acts, all_of. generalize (marked inv l p). intros q. revert s. induction q as [|e q IH]; intros s; [reflexivity|]. cbn [map fold_left]. apply IH. Qed.
Lemma all_of_nil (act : M -> ST -> ST) s : all_of act [] s = s. Proof. reflexivity. Qed.

Lemma swaps_marked (act : M -> ST -> ST) inv t s t' s' : applySwapOperations Ph Lg G M pheq pk gswapt ST act inv t s = (t', s') ->
  exists sw, Forall (fun e => fst e = true) sw /\ todo inv t = sw ++ todo inv t' /\ s' = all_of act sw s /\
    match todo inv t' with [] => True | e :: _ => fst e = false end.
Proof.
  unfold applySwapOperations. destruct t as [r p]. cbn [t_rest t_perm]. revert p s. induction r as [|o r IH]; intros p s H; cbn [apply_swaps] in H.
  - injection H as <- <-. exists []. repeat split. constructor.
  - destruct (is_swap o) eqn:ES; cbn [OrderSpec.marked].
    + destruct (getDD inv o p) as [m p'] eqn:E. destruct (IH _ _ H) as (sw & F & T & S & N). exists ((true, m) :: sw).
      split; [constructor; [reflexivity|exact F]|]. split; [now rewrite ES, T|]. split; [exact S|exact N].
    + injection H as <- <-. exists []. split; [constructor|]. cbn [t_rest t_perm app]. split; [reflexivity|]. split; [reflexivity|].
      cbn [OrderSpec.marked]. destruct (getDD inv o p). exact ES.
Qed.

Lemma swaps_rest (act : M -> ST -> ST) inv t s t' s' : applySwapOperations Ph Lg G M pheq pk gswapt ST act inv t s = (t', s') ->
  incl (rest t') (rest t) /\ (rest t' = [] \/ exists o r, rest t' = o :: r /\ is_swap o = false) /\
  (forall o r, rest t = o :: r -> is_swap o = false -> t' = t).
Proof.
  unfold applySwapOperations. destruct t as [r p]. cbn [t_rest t_perm]. revert p s. induction r as [|o r IH]; intros p s H; cbn [apply_swaps] in H.
  - injection H as <- <-. split; [apply incl_refl|]. split; [now left|]. discriminate.
  - destruct (is_swap o) eqn:ES.
    + destruct (getDD inv o p) as [m p']. destruct (IH _ _ H) as (A & B & _). split; [now apply incl_tl|]. split; [exact B|]. intros o' r' E. injection E as <- _. congruence.
    + injection H as <- <-. split; [apply incl_refl|]. split; [right; cbn; eauto|]. intros; reflexivity.
Qed.

Section L.
Variables (k : chk M ST) (c1 c2 : circuit Ph Lg G).
Hypothesis inv2 : k_inv2 _ _ k = true.
Notation act1 := (k_act1 M ST k).
Notation act2 := (k_act2 M ST k).
Notation xst := (xst Ph Lg G M ST).
Notation xs := (x_s Ph Lg G M ST).
Notation xt1 := (x_t1 Ph Lg G M ST).
Notation xt2 := (x_t2 Ph Lg G M ST).
Notation xc1 := (x_c1 Ph Lg G M ST).
Notation xc2 := (x_c2 Ph Lg G M ST).
Notation execute := (execute Ph Lg G M pheq pk gswapt geqb view ST k SLookahead never).
Notation greedy := (greedy act1 act2 (k_size M ST k)).
Notation final x := (xs (finish Ph Lg G M pheq pk gswapt ST k never x)).
Notation cached_ok := (cached_ok pheq pk gswapt).
Definition ok (x : xst) : Prop :=
  cached_ok false (xc1 x) (xt1 x) /\ cached_ok true (xc2 x) (xt2 x) /\ no_hidden_swap (rest (xt1 x)) /\ no_hidden_swap (rest (xt2 x)).

Lemma final_eq x : final x = all_of act2 (todo true (xt2 x)) (all_of act1 (todo false (xt1 x)) (xs x)).
Proof.
  unfold finish. assert (F1 : forall z : xst, xs (finish1 Ph Lg G M pheq pk gswapt ST k z) = all_of act1 (todo false (xt1 z)) (xs z) /\ xt2 (finish1 Ph Lg G M pheq pk gswapt ST k z) = xt2 z).
  { intros z. unfold finish1, on1. destruct (tm_finish _ _ _ _ _ _ _ _ _ _ (xt1 z) (xs z)) as [t s] eqn:E.
    destruct (tm_finish_value _ _ _ _ _ _ _ _ _ E) as (R & V & _). unfold value in V. rewrite R in V. cbn [DDSpec.trace fst snd acts fold_left] in V.
    injection V as _ V. rewrite all_of_marked in V. split; [cbn [x_s]; symmetry; exact V|reflexivity]. }
  assert (F2 : forall z : xst, xs (finish2 Ph Lg G M pheq pk gswapt ST k z) = all_of act2 (todo true (xt2 z)) (xs z)).
  { intros z. unfold finish2, on2. rewrite inv2. destruct (tm_finish _ _ _ _ _ _ _ _ _ _ (xt2 z) (xs z)) as [t s] eqn:E.
    destruct (tm_finish_value _ _ _ _ _ _ _ _ _ E) as (R & V & _). unfold value in V. rewrite R in V. cbn [DDSpec.trace fst snd acts fold_left] in V.
    injection V as _ V. rewrite all_of_marked in V. cbn [x_s]; symmetry; exact V. }
  unfold isDone, never. destruct (k_alt _ _ k).
  - destruct (F1 x) as [A B]. rewrite F2. cbn [x_s x_t1 x_t2]. now rewrite A, B.
  - rewrite F2. cbn [x_s x_t1 x_t2]. match goal with |- context [finish1 _ _ _ _ _ _ _ _ _ ?z] => destruct (F1 z) as [A B] end. rewrite A, B. reflexivity.
Qed.

Lemma step_todo inv t m o r : rest t = o :: r -> is_swap o = false -> getDD inv o (tperm t) = (m, tperm t) ->
  todo inv t = (false, m) :: todo inv (advanceIterator _ _ _ t).
Proof. intros R S E. unfold advanceIterator. cbn [t_rest t_perm]. rewrite R. cbn [OrderSpec.marked tl]. now rewrite E, S. Qed.

Lemma nh_incl (a b : list (op Ph G)) : incl a b -> no_hidden_swap b -> no_hidden_swap a.
Proof. intros I H o O. apply H, I, O. Qed.

Lemma swaps1_ok x : ok x -> let y := swaps1 Ph Lg G M pheq pk gswapt ST k x in
  ok y /\ xt2 y = xt2 x /\ (rest (xt1 y) = [] \/ exists o r, rest (xt1 y) = o :: r /\ is_swap o = false) /\
  exists sw, Forall (fun e => fst e = true) sw /\ todo false (xt1 x) = sw ++ todo false (xt1 y) /\ xs y = all_of act1 sw (xs x) /\
    match todo false (xt1 y) with [] => True | e :: _ => fst e = false end.
Proof.
  intros (C1 & C2 & H1 & H2). cbv zeta. unfold swaps1, on1. destruct (applySwapOperations _ _ _ _ _ _ _ _ _ _ (xt1 x) (xs x)) as [t s] eqn:E.
  destruct (swaps_rest _ _ _ _ _ _ E) as (A & B & C). pose proof (swaps_marked _ _ _ _ _ _ E) as S. cbn [x_t1 x_t2 x_s].
  split; [|split; [reflexivity|split; [exact B|exact S]]]. split; [|split; [exact C2|split; [exact (nh_incl _ _ A H1)|exact H2]]]. cbn [x_c1 x_t1].
  unfold DDProofs2.cached_ok in *. destruct (xc1 x); [|exact I]. destruct C1 as (o & r & R & N & D). rewrite (C o r R N). eauto.
Qed.
Lemma swaps2_ok x : ok x -> let y := swaps2 Ph Lg G M pheq pk gswapt ST k x in
  ok y /\ xt1 y = xt1 x /\ (rest (xt2 y) = [] \/ exists o r, rest (xt2 y) = o :: r /\ is_swap o = false) /\
  exists sw, Forall (fun e => fst e = true) sw /\ todo true (xt2 x) = sw ++ todo true (xt2 y) /\ xs y = all_of act2 sw (xs x) /\
    match todo true (xt2 y) with [] => True | e :: _ => fst e = false end.
Proof.
  intros (C1 & C2 & H1 & H2). cbv zeta. unfold swaps2, on2. rewrite inv2. destruct (applySwapOperations _ _ _ _ _ _ _ _ _ _ (xt2 x) (xs x)) as [t s] eqn:E.
  destruct (swaps_rest _ _ _ _ _ _ E) as (A & B & C). pose proof (swaps_marked _ _ _ _ _ _ E) as S. cbn [x_t1 x_t2 x_s].
  split; [|split; [reflexivity|split; [exact B|exact S]]]. split; [exact C1|]. split; [|split; [exact H1|exact (nh_incl _ _ A H2)]]. cbn [x_c2 x_t2].
  unfold DDProofs2.cached_ok in *. destruct (xc2 x); [|exact I]. destruct C2 as (o & r & R & N & D). rewrite (C o r R N). eauto.
Qed.
Lemma perm_kept inv o (l : list (op Ph G)) p : no_hidden_swap l -> In o l -> is_swap o = false -> snd (getDD inv o p) = p.
Proof. intros H I S. destruct (H o I) as [F|(a & b & ->)]; [now apply swap_free_perm|discriminate]. Qed.
Lemma cache1_ok x m y o r : ok x -> rest (xt1 x) = o :: r -> is_swap o = false -> cache1 Ph Lg G M pheq pk ST x = (m, y) ->
  ok y /\ xs y = xs x /\ xt1 y = xt1 x /\ xt2 y = xt2 x /\ xc2 y = xc2 x /\ getDD false o (tperm (xt1 x)) = (m, tperm (xt1 x)).
Proof.
  intros (C1 & C2 & H1 & H2) R S H. unfold cache1 in H. destruct (xc1 x) as [m'|] eqn:EC.
  - injection H as <- <-. split; [split; [now rewrite EC|auto]|]. do 4 (split; [reflexivity|]). destruct C1 as (o' & r' & R' & _ & D). rewrite R in R'. injection R' as <- <-. exact D.
  - rewrite R in H. pose proof (perm_kept false o _ (tperm (xt1 x)) H1 ltac:(rewrite R; now left) S) as K. destruct (getDD false o (tperm (xt1 x))) as [m0 p] eqn:E. cbn in K. subst p.
    injection H as <- <-. cbn [x_s x_t1 x_t2 x_c2]. assert (HT : mkTm _ _ _ (o :: r) (tperm (xt1 x)) = xt1 x) by (rewrite <- R; now destruct (xt1 x)). rewrite HT.
    repeat split; auto. cbn [x_c1 x_t1 DDProofs2.cached_ok]. eauto.
Qed.
Lemma cache2_ok x m y o r : ok x -> rest (xt2 x) = o :: r -> is_swap o = false -> cache2 Ph Lg G M pheq pk ST x = (m, y) ->
  ok y /\ xs y = xs x /\ xt1 y = xt1 x /\ xt2 y = xt2 x /\ xc1 y = xc1 x /\ getDD true o (tperm (xt2 x)) = (m, tperm (xt2 x)).
Proof.
  intros (C1 & C2 & H1 & H2) R S H. unfold cache2 in H. destruct (xc2 x) as [m'|] eqn:EC.
  - injection H as <- <-. split; [split; [exact C1|split; [now rewrite EC|auto]]|]. do 4 (split; [reflexivity|]). destruct C2 as (o' & r' & R' & _ & D). rewrite R in R'. injection R' as <- <-. exact D.
  - rewrite R in H. pose proof (perm_kept true o _ (tperm (xt2 x)) H2 ltac:(rewrite R; now left) S) as K. destruct (getDD true o (tperm (xt2 x))) as [m0 p] eqn:E. cbn in K. subst p.
    injection H as <- <-. cbn [x_s x_t1 x_t2 x_c1]. assert (HT : mkTm _ _ _ (o :: r) (tperm (xt2 x)) = xt2 x) by (rewrite <- R; now destruct (xt2 x)). rewrite HT.
    repeat split; auto. cbn [x_c2 x_t2 DDProofs2.cached_ok]. eauto.
Qed.
Lemma advance_zero inv act f (t : tm) (s : ST) : advance_fuel Ph Lg G M pheq pk gswapt ST act inv f 0 t s = (t, s).
Proof. destruct f; reflexivity. Qed.

Lemma execute_greedy f : forall x y, ok x -> execute f x = Some y -> greedy (todo false (xt1 x)) (todo true (xt2 x)) (xs x) (final y).
Proof.
  induction f as [|f IH]; intros x y HI H; [discriminate|]. cbn [DDCheck.execute] in H.
  destruct (both_left _ _ _ _ _ x) eqn:EB; cbn [negb] in H.
  2:{ injection H as <-. rewrite final_eq. unfold both_left in EB. apply andb_false_iff in EB. rewrite !negb_false_iff, !fin_rest in EB.
      destruct EB as [E|E]; rewrite E; cbn [OrderSpec.marked]; rewrite all_of_nil; constructor. }
  unfold isDone at 1 in H. unfold never at 1 in H. apply both_left_spec in EB. destruct EB as [_ B2].
  apply fin_rest_f in B2. destruct B2 as (ob2 & rb2 & B2).
  set (x0 := mkX _ _ _ _ _ (xs x) (xt1 x) (xt2 x) _ _ _) in H. assert (HI0 : ok x0) by exact HI.
  destruct (swaps1_ok x0 HI0) as (I1 & E1 & N1 & sw1 & F1 & T1 & S1 & M1). set (x1 := swaps1 _ _ _ _ _ _ _ _ _ x0) in *.
  destruct (swaps2_ok x1 I1) as (I2 & E2 & N2 & sw2 & F2 & T2 & S2 & M2). set (x2 := swaps2 _ _ _ _ _ _ _ _ _ x1) in *.
  change (xt1 x) with (xt1 x0). change (xt2 x) with (xt2 x0). change (xs x) with (xs x0). rewrite T1.
  apply greedy_swaps1; [exact F1|apply marked_nil; change (xt2 x0) with (xt2 x); rewrite B2; discriminate|]. rewrite <- S1, <- E1, T2.
  apply greedy_swaps2; [exact F2|exact M1|]. rewrite <- S2, <- E2.
  destruct (both_left _ _ _ _ _ x2) eqn:EB2; cbn [negb] in H; [|exact (IH _ _ I2 H)].
  apply both_left_spec in EB2. destruct EB2 as [G1 G2].
  destruct N2 as [N2|(o2 & r2 & R2 & W2)]; [apply fin_rest in N2; congruence|].
  destruct N1 as [N1|(o1 & r1 & R1 & W1)]; [rewrite <- E2 in N1; apply fin_rest in N1; congruence|]. rewrite <- E2 in R1.
  unfold isDone at 1 in H. unfold never at 1 in H. cbn [is_lookahead negb] in H. rewrite andb_false_r in H. cbn [andb query] in H.
  set (x3 := mkX _ _ _ _ _ (xs x2) (xt1 x2) (xt2 x2) _ _ _) in H. assert (I3 : ok x3) by exact I2.
  unfold lookahead in H. destruct (cache1 _ _ _ _ _ _ _ x3) as [m1 x4] eqn:K1.
  destruct (cache1_ok x3 m1 x4 o1 r1 I3 R1 W1 K1) as (I4 & XS4 & XT4 & XU4 & XC4 & D1).
  destruct (cache2 _ _ _ _ _ _ _ x4) as [m2 x5] eqn:K2.
  destruct (cache2_ok x4 m2 x5 o2 r2 I4 ltac:(rewrite XU4; exact R2) W2 K2) as (I5 & XS5 & XT5 & XU5 & XC5 & D2).
  rewrite XU4 in D2. unfold isDone, never in H. unfold advance1, advance2, on1, on2, advance in H. cbn [x_s x_t1 x_t2 x_c1 x_c2 x_tick] in H.
  rewrite XS5, XS4 in H. change (xs x3) with (xs x2) in H.
  rewrite (step_todo false (xt1 x2) m1 o1 r1 R1 W1 D1), (step_todo true (xt2 x2) m2 o2 r2 R2 W2 D2).
  destruct I5 as (C51 & C52 & H51 & H52).
  assert (Y1 : xt1 x5 = xt1 x2) by (rewrite XT5, XT4; reflexivity). assert (Y2 : xt2 x5 = xt2 x2) by (rewrite XU5, XU4; reflexivity).
  rewrite Y1, Y2 in H. rewrite Y1 in C51, H51. rewrite Y2 in C52, H52.
  destruct (N.leb_spec (k_size _ _ k (act1 m1 (xs x2))) (k_size _ _ k (act2 m2 (xs x2)))) as [L|L]; cbn [x_s x_t1 x_t2 x_c1 x_c2 x_tick] in H;
    rewrite !advance_zero in H; cbn [x_s x_t1 x_t2 x_c1 x_c2 x_tick] in H; rewrite ?advance_zero in H.
  - apply greedy_left; [exact L|]. rewrite <- (step_todo true (xt2 x2) m2 o2 r2 R2 W2 D2).
    refine (IH _ _ _ H). split; [exact I|]. split; [exact C52|]. split; [|exact H52]. cbn [x_t1]. unfold advanceIterator. cbn [t_rest].
    eapply nh_incl; [|exact H51]. rewrite R1. apply incl_tl, incl_refl.
  - apply greedy_right; [exact L|]. rewrite <- (step_todo false (xt1 x2) m1 o1 r1 R1 W1 D1).
    refine (IH _ _ _ H). split; [exact C51|]. split; [exact I|]. split; [exact H51|]. cbn [x_t2]. unfold advanceIterator. cbn [t_rest].
    eapply nh_incl; [|exact H52]. rewrite R2. apply incl_tl, incl_refl.
Qed.

Lemma lookahead_order s0 : no_hidden_swap (c_ops _ _ _ c1) -> no_hidden_swap (c_ops _ _ _ c2) ->
  exists x, execute (loop_bound Ph Lg G c1 c2) (initial Ph Lg G M ST c1 c2 s0) = Some x /\
    greedy (marked false (c_ops _ _ _ c1) (c_layout _ _ _ c1)) (marked true (c_ops _ _ _ c2) (c_layout _ _ _ c2)) s0 (final x).
Proof.
  intros H1 H2. pose proof (execute_bound pheq pk gswapt geqb view k SLookahead c1 c2 I (loop_bound Ph Lg G c1 c2)
                (initial Ph Lg G M _ c1 c2 s0)) as HB. cbn [initial x_t1 x_t2 tm_reset t_rest] in HB. unfold loop_bound in *.
  destruct (execute _ _) as [x|] eqn:E; [|exfalso; apply HB; [lia|lia|reflexivity]].
  exists x. split; [reflexivity|]. refine (execute_greedy _ _ _ _ E). split; [exact I|]. split; [exact I|]. split; assumption.
Qed.
End L.

Section O.
Variables (k : chk M ST) (c1 c2 : circuit Ph Lg G).
Hypothesis noid : forall s, k_isid _ _ k s = false.
Notation act1 := (k_act1 M ST k).
Notation act2 := (k_act2 M ST k).
Notation inv2 := (k_inv2 M ST k).
Notation xst := (xst Ph Lg G M ST).
Notation xs := (x_s Ph Lg G M ST).
Notation xt1 := (x_t1 Ph Lg G M ST).
Notation xt2 := (x_t2 Ph Lg G M ST).
Notation execute := (execute Ph Lg G M pheq pk gswapt geqb view ST k SOneToOne never).
Notation final x := (xs (finish Ph Lg G M pheq pk gswapt ST k never x)).
Notation left inv t := (fst (trace inv (rest t) (tperm t))).
Notation plain := (plain gswapt).

Lemma final_eq' x : final x = acts act2 (left inv2 (xt2 x)) (acts act1 (left false (xt1 x)) (xs x)).
Proof.
  unfold finish. assert (F1 : forall z : xst, xs (finish1 Ph Lg G M pheq pk gswapt ST k z) = acts act1 (left false (xt1 z)) (xs z) /\ xt2 (finish1 Ph Lg G M pheq pk gswapt ST k z) = xt2 z).
  { intros z. unfold finish1, on1. destruct (tm_finish _ _ _ _ _ _ _ _ _ _ (xt1 z) (xs z)) as [t s] eqn:E.
    destruct (tm_finish_value _ _ _ _ _ _ _ _ _ E) as (R & V & _). unfold value in V. rewrite R in V. cbn [DDSpec.trace fst snd] in V.
    injection V as _ V. split; [cbn [x_s]; symmetry; exact V|reflexivity]. }
  assert (F2 : forall z : xst, xs (finish2 Ph Lg G M pheq pk gswapt ST k z) = acts act2 (left inv2 (xt2 z)) (xs z)).
  { intros z. unfold finish2, on2. destruct (tm_finish _ _ _ _ _ _ _ _ _ _ (xt2 z) (xs z)) as [t s] eqn:E.
    destruct (tm_finish_value _ _ _ _ _ _ _ _ _ E) as (R & V & _). unfold value in V. rewrite R in V. cbn [DDSpec.trace fst snd] in V.
    injection V as _ V. cbn [x_s]; symmetry; exact V. }
  unfold isDone, never. destruct (k_alt _ _ k).
  - destruct (F1 x) as [A B]. rewrite F2. cbn [x_s x_t1 x_t2]. now rewrite A, B.
  - rewrite F2. cbn [x_s x_t1 x_t2]. match goal with |- context [finish1 _ _ _ _ _ _ _ _ _ ?z] => destruct (F1 z) as [A B] end. rewrite A, B. reflexivity.
Qed.
Lemma swaps_plain act inv t (s : ST) : plain (rest t) -> applySwapOperations Ph Lg G M pheq pk gswapt ST act inv t s = (t, s).
Proof. destruct t as [[|o r] p]; unfold applySwapOperations; cbn [t_rest t_perm apply_swaps]; [reflexivity|]. intros H. inversion H; subst. now rewrite H2. Qed.
Lemma advance_one act inv t (s : ST) o r : rest t = o :: r -> plain (rest t) ->
  advance Ph Lg G M pheq pk gswapt ST act inv 1 t s =
    (mkTm _ _ _ r (snd (getDD inv o (tperm t))), act (fst (getDD inv o (tperm t))) s).
Proof.
  intros R H. unfold advance. rewrite R. cbn [length advance_fuel N.eqb orb]. unfold finished. rewrite R. unfold applyGate. rewrite R.
  destruct (getDD inv o (tperm t)) as [m p]. rewrite R in H. inversion H; subst. rewrite (swaps_plain act inv (mkTm _ _ _ r p)) by assumption.
  change (1 - 1)%N with 0%N. rewrite advance_zero. reflexivity.
Qed.
Lemma execute_alternate f : forall x y, plain (rest (xt1 x)) -> plain (rest (xt2 x)) -> execute f x = Some y ->
  final y = alternate act1 act2 (left false (xt1 x)) (left inv2 (xt2 x)) (xs x).
Proof.
  induction f as [|f IH]; intros x y P1 P2 H; [discriminate|]. cbn [DDCheck.execute] in H.
  destruct (both_left _ _ _ _ _ x) eqn:EB; cbn [negb] in H.
  2:{ injection H as <-. rewrite final_eq'. unfold both_left in EB. apply andb_false_iff in EB. rewrite !negb_false_iff, !fin_rest in EB.
      destruct EB as [E|E]; rewrite E; cbn [DDSpec.trace fst]; [reflexivity|]. destruct (left false (xt1 x)); reflexivity. }
  apply both_left_spec in EB. destruct EB as [B1 B2]. pose proof B1 as B1'. pose proof B2 as B2'. apply fin_rest_f in B1', B2'. destruct B1' as (o1 & r1 & R1). destruct B2' as (o2 & r2 & R2).
  unfold isDone, never in H. cbv iota in H. unfold swaps1, swaps2, on1, on2 in H. cbn [x_s x_t1 x_t2 x_c1 x_c2 x_tick] in H.
  rewrite (swaps_plain act1 false (xt1 x) (xs x) P1) in H. cbn [x_s x_t1 x_t2 x_c1 x_c2 x_tick] in H. rewrite (swaps_plain act2 inv2 (xt2 x) (xs x) P2) in H.
  unfold both_left in H. cbn [x_s x_t1 x_t2 x_c1 x_c2 x_tick] in H. rewrite B1, B2 in H. cbn [negb andb] in H. rewrite noid in H. cbn [andb query] in H.
  unfold onetoone_scheme in H. cbn [x_s x_t1 x_t2 x_c1 x_c2 x_tick] in H.
  unfold advance1, advance2, on1, on2 in H. cbn [x_s x_t1 x_t2 x_c1 x_c2 x_tick] in H. rewrite (advance_one act1 false (xt1 x) (xs x) o1 r1 R1 P1) in H.
  cbn [x_s x_t1 x_t2 x_c1 x_c2 x_tick] in H. rewrite (advance_one act2 inv2 (xt2 x) _ o2 r2 R2 P2) in H.
  apply IH in H.
  - rewrite H. cbn [x_s x_t1 x_t2 t_rest t_perm]. rewrite R1, R2. cbn [DDSpec.trace].
    destruct (getDD false o1 (tperm (xt1 x))) as [m1 p1]. destruct (getDD inv2 o2 (tperm (xt2 x))) as [m2 p2]. cbn [fst snd].
    destruct (trace false r1 p1), (trace inv2 r2 p2). reflexivity.
  - cbn [x_t1 t_rest]. rewrite R1 in P1. now inversion P1.
  - cbn [x_t2 t_rest]. rewrite R2 in P2. now inversion P2.
Qed.
Lemma onetoone_order s0 : plain (c_ops _ _ _ c1) -> plain (c_ops _ _ _ c2) ->
  exists x, execute (loop_bound Ph Lg G c1 c2) (initial Ph Lg G M ST c1 c2 s0) = Some x /\
    final x = alternate act1 act2 (fst (trace false (c_ops _ _ _ c1) (c_layout _ _ _ c1))) (fst (trace inv2 (c_ops _ _ _ c2) (c_layout _ _ _ c2))) s0.
Proof.
  intros H1 H2. pose proof (execute_bound pheq pk gswapt geqb view k SOneToOne c1 c2 I (loop_bound Ph Lg G c1 c2)
                (initial Ph Lg G M _ c1 c2 s0)) as HB. cbn [initial x_t1 x_t2 tm_reset t_rest] in HB. unfold loop_bound in *.
  destruct (execute _ _) as [x|] eqn:E; [|exfalso; apply HB; [lia|lia|reflexivity]].
  exists x. split; [reflexivity|]. exact (execute_alternate _ (initial Ph Lg G M ST c1 c2 s0) _ H1 H2 E).
Qed.
End O.
End P.
