(** The sequential application scheme finishes in one iteration. *)
From Coq Require Import List Bool NArith Arith Lia.
From Verif Require Import Criterion Schemes DDCheck DDSpec DDProofs DDProofs4.
Import ListNotations.

Section P.
Context {Ph Lg G M ST : Type}.
Variables (pheq : Ph -> Ph -> bool) (pk : pkg Ph Lg G M) (gswapt : G -> bool) (geqb : G -> G -> bool) (view : op Ph G -> opview).
Notation rest := (t_rest Ph Lg G).
Notation fin := (finished Ph Lg G).

Lemma swaps_rest act inv r p (s : ST) : let t := fst (apply_swaps Ph Lg G M pheq pk gswapt ST act inv r p s) in
  length (rest t) <= length r /\ (existsb (fun o => negb (is_swap _ _ gswapt o)) r = true -> existsb (fun o => negb (is_swap _ _ gswapt o)) (rest t) = true).
Proof.
  revert p s; induction r as [|o r IH]; intros p s; cbn [apply_swaps]; [split; [apply le_n|auto]|].
  destruct (is_swap Ph G gswapt o) eqn:E.
  - destruct (getDD _ _ _ _ _ _ _ _ _) as [m p']. specialize (IH p' (act m s)). cbn in IH |- *. rewrite E. cbn. split; [lia|apply IH].
  - cbn. rewrite E. auto.
Qed.

Lemma adv_fin act inv fuel : forall n t (s : ST), length (rest t) <= fuel -> (N.of_nat (length (rest t)) <= n)%N ->
  rest (fst (advance_fuel Ph Lg G M pheq pk gswapt ST act inv fuel n t s)) = [].
Proof.
  induction fuel as [|f IH]; intros n t s HF HN; cbn [advance_fuel].
  - destruct (rest t) eqn:E; [exact E|cbn in HF; lia].
  - destruct ((n =? 0)%N || fin t) eqn:E.
    + apply orb_true_iff in E. destruct E as [E|E].
      * apply N.eqb_eq in E. subst n. cbn. destruct (rest t) eqn:E; [reflexivity|cbn in HN; lia].
      * unfold finished in E. cbn. destruct (rest t) eqn:E'; [reflexivity|discriminate].
    + apply orb_false_iff in E. destruct E as [E1 E2]. apply N.eqb_neq in E1.
      unfold applyGate. destruct (rest t) as [|o r] eqn:ER; [unfold finished in E2; rewrite ER in E2; discriminate|].
      destruct (getDD _ _ _ _ _ _ _ _ _) as [m p']. unfold applySwapOperations. cbn [t_rest t_perm].
      pose proof (swaps_rest act inv r p' (act m s)) as H. destruct (apply_swaps _ _ _ _ _ _ _ _ _ _ r p' _) as [t2 s2]. cbn in H.
      apply IH; cbn in HF, HN; lia.
Qed.

Lemma existsb_ne {A} (f : A -> bool) l : existsb f l = true -> l <> [].
Proof. destruct l; discriminate. Qed.

Lemma seq_once (k : chk M ST) (c1 c2 : circuit Ph Lg G) (s0 : ST) sch n1 n2 : sch = SSequential n1 n2 -> scheme_for c1 c2 sch ->
  (forall s, k_isid _ _ k s = false) ->
  (exists o, In o (c_ops _ _ _ c1) /\ is_swap _ _ gswapt o = false) -> (exists o, In o (c_ops _ _ _ c2) /\ is_swap _ _ gswapt o = false) ->
  exists y, execute Ph Lg G M pheq pk gswapt geqb view ST k sch never 2 (initial Ph Lg G M ST c1 c2 s0) = Some y /\
    rest (x_t1 _ _ _ _ _ y) = [] /\ rest (x_t2 _ _ _ _ _ y) = [].
Proof.
  intros -> [-> ->] HI (o1 & H1 & N1) (o2 & H2 & N2).
  assert (E1 : existsb (fun o => negb (is_swap _ _ gswapt o)) (c_ops _ _ _ c1) = true) by (apply existsb_exists; exists o1; rewrite N1; auto).
  assert (E2 : existsb (fun o => negb (is_swap _ _ gswapt o)) (c_ops _ _ _ c2) = true) by (apply existsb_exists; exists o2; rewrite N2; auto).
  cbn [execute]. unfold both_left at 1, initial, tm_reset, finished. cbn [x_t1 x_t2 t_rest].
  destruct (c_ops _ _ _ c1) as [|a r1] eqn:O1; [discriminate|]. destruct (c_ops _ _ _ c2) as [|b r2] eqn:O2; [discriminate|].
  cbn [negb andb isDone never]. cbn [x_s x_t1 x_t2 x_c1 x_c2 x_tick].
  unfold swaps1, on1, applySwapOperations. cbn [x_s x_t1 x_t2 x_c1 x_c2 x_tick t_rest t_perm].
  pose proof (swaps_rest (k_act1 _ _ k) false (a :: r1) (c_layout _ _ _ c1) s0) as S1.
  destruct (apply_swaps _ _ _ _ _ _ _ _ _ _ (a :: r1) _ _) as [t1 s1].
  unfold swaps2, on2, applySwapOperations. cbn [x_s x_t1 x_t2 x_c1 x_c2 x_tick t_rest t_perm].
  pose proof (swaps_rest (k_act2 _ _ k) (k_inv2 _ _ k) (b :: r2) (c_layout _ _ _ c2) s1) as S2.
  destruct (apply_swaps _ _ _ _ _ _ _ _ _ _ (b :: r2) _ _) as [t2 s2].
  cbn [fst] in S1, S2. destruct S1 as [L1 S1], S2 as [L2 S2]. specialize (S1 E1). specialize (S2 E2).
  unfold both_left at 1. cbn [x_t1 x_t2]. unfold finished.
  destruct (rest t1) as [|u v1] eqn:R1; [discriminate|]. destruct (rest t2) as [|w v2] eqn:R2; [discriminate|].
  cbn [negb andb]. rewrite HI. cbn [andb]. cbn [query sequential_scheme x_s x_t1 x_t2 x_c1 x_c2 x_tick].
  unfold advance1, on1, advance. cbn [x_s x_t1 x_t2 x_c1 x_c2 x_tick].
  match goal with |- context [advance_fuel ?A ?B ?C ?D ?E ?F ?GG ?H ?I ?J ?K ?n t1 ?s] =>
    pose proof (adv_fin I J K n t1 s) as A1; destruct (advance_fuel A B C D E F GG H I J K n t1 s) as [t1' s1'] eqn:EA1 end.
  unfold advance2, on2, advance. cbn [x_s x_t1 x_t2 x_c1 x_c2 x_tick].
  match goal with |- context [advance_fuel ?A ?B ?C ?D ?E ?F ?GG ?H ?I ?J ?K ?n t2 ?s] =>
    pose proof (adv_fin I J K n t2 s) as A2; destruct (advance_fuel A B C D E F GG H I J K n t2 s) as [t2' s2'] eqn:EA2 end.
  cbn [fst] in A1, A2.
  rewrite R1 in A1. rewrite R2 in A2.
  assert (Z1 : rest t1' = []) by (apply A1; [apply le_n|lia]).
  assert (Z2 : rest t2' = []) by (apply A2; [apply le_n|lia]).
  unfold both_left, finished. cbn [x_s x_t1 x_t2 x_c1 x_c2 x_tick]. rewrite Z1. cbn [negb andb].
  eexists. split; [reflexivity|]. cbn. auto.
Qed.
End P.
