(** The main loop: what an uncancelled run computes, and termination. *)
From Coq Require Import List Bool NArith Arith Lia.
From Verif Require Import Criterion Schemes SchemesProofs2 DDCheck DDSpec DDProofs.
Import ListNotations.

Section P.
Context {Ph Lg G M ST : Type}.
Variables (pheq : Ph -> Ph -> bool) (lgeq : Lg -> Lg -> bool) (pk : pkg Ph Lg G M) (gswapt : G -> bool) (geqb : G -> G -> bool)
          (view : op Ph G -> opview) (k : chk M ST) (sch : appscheme).
Notation op := (op Ph G).
Notation perm := (perm Ph Lg).
Notation circuit := (circuit Ph Lg G).
Notation tm := (tm Ph Lg G).
Notation getDD := (getDD Ph Lg G M pheq pk).
Notation trace := (trace pheq pk).
Notation rest := (t_rest Ph Lg G).
Notation tperm := (t_perm Ph Lg G).
Notation mkTm := (mkTm Ph Lg G).
Notation is_swap := (is_swap Ph G gswapt).
Notation act1 := (k_act1 M ST k).
Notation act2 := (k_act2 M ST k).
Notation inv2 := (k_inv2 M ST k).
Notation xst := (xst Ph Lg G M ST).
Notation xs := (x_s Ph Lg G M ST).
Notation xt1 := (x_t1 Ph Lg G M ST).
Notation xt2 := (x_t2 Ph Lg G M ST).
Notation xc1 := (x_c1 Ph Lg G M ST).
Notation xc2 := (x_c2 Ph Lg G M ST).
Notation xtick := (x_tick Ph Lg G M ST).
Notation fin := (finished Ph Lg G).
Notation left x := (length (rest (xt1 x)) + length (rest (xt2 x))).
Notation execute := (execute Ph Lg G M pheq pk gswapt geqb view ST k sch).

Lemma both_left_spec (x : xst) : both_left Ph Lg G M ST x = true <-> fin (xt1 x) = false /\ fin (xt2 x) = false.
Proof. unfold both_left. rewrite andb_true_iff, !negb_true_iff. reflexivity. Qed.
Lemma fin_rest (t : tm) : fin t = true <-> rest t = [].
Proof. unfold finished. destruct (rest t); split; congruence. Qed.
Lemma fin_rest_f (t : tm) : fin t = false <-> exists o r, rest t = o :: r.
Proof. unfold finished. destruct (rest t); split; try discriminate; eauto. intros (? & ? & H). discriminate. Qed.

(** value of the whole state *)
Definition total (x : xst) : perm * perm * ST :=
  (fst (value pheq pk act1 false (xt1 x) (xs x)), fst (value pheq pk act2 inv2 (xt2 x) (xs x)),
   snd (value pheq pk act2 inv2 (xt2 x) (snd (value pheq pk act1 false (xt1 x) (xs x))))).

Hypothesis comm : sides_commute k.

Lemma acts_cons (act : M -> ST -> ST) m l s : acts act (m :: l) s = acts act l (act m s). Proof. reflexivity. Qed.
Lemma act1_acts2 m l s : act1 m (acts act2 l s) = acts act2 l (act1 m s).
Proof. revert s. induction l as [|n l IH]; intros s; [reflexivity|]. rewrite !acts_cons, IH. f_equal. apply comm. Qed.
Lemma acts_comm l1 l2 s : acts act1 l1 (acts act2 l2 s) = acts act2 l2 (acts act1 l1 s).
Proof. revert s. induction l1 as [|n l IH]; intros s; [reflexivity|]. rewrite !acts_cons, act1_acts2. apply IH. Qed.

Lemma total_on1 x t s : value pheq pk act1 false (xt1 x) (xs x) = value pheq pk act1 false t s ->
  total (mkX _ _ _ _ _ s t (xt2 x) (xc1 x) (xc2 x) (xtick x)) = total x.
Proof. intros H. unfold total. cbn [x_s x_t1 x_t2]. rewrite H. unfold value in *. cbn [fst snd] in *. reflexivity. Qed.
Lemma total_on2 x t s : value pheq pk act2 inv2 (xt2 x) (xs x) = value pheq pk act2 inv2 t s ->
  total (mkX _ _ _ _ _ s (xt1 x) t (xc1 x) (xc2 x) (xtick x)) = total x.
Proof.
  intros H. unfold total. cbn [x_s x_t1 x_t2]. unfold value in *. cbn [fst snd] in *. injection H as H1 H2. f_equal; [f_equal; congruence|].
  rewrite <- !acts_comm. now rewrite H2.
Qed.

Variables (c1 c2 : circuit).

Definition cached_ok (inv : bool) (c : option M) (t : tm) : Prop :=
  match c with
  | None => True
  | Some m => exists o r, rest t = o :: r /\ is_swap o = false /\ getDD inv o (tperm t) = (m, tperm t)
  end.
Definition Inv (x : xst) : Prop :=
  ahead pheq pk false (tm_reset _ _ _ c1) (xt1 x) /\ ahead pheq pk inv2 (tm_reset _ _ _ c2) (xt2 x) /\
  (is_lookahead sch = true -> cached_ok false (xc1 x) (xt1 x) /\ cached_ok true (xc2 x) (xt2 x)).

Hypothesis skips : is_lookahead sch = false -> skips_ok pheq pk gswapt k geqb c1 c2.
Hypothesis hidden : is_lookahead sch = true -> inv2 = true /\ no_hidden_swap (c_ops _ _ _ c1) /\ no_hidden_swap (c_ops _ _ _ c2).

Lemma cached_swaps inv (act : M -> ST -> ST) c t s t' s' : cached_ok inv c t ->
  applySwapOperations Ph Lg G M pheq pk gswapt ST act inv t s = (t', s') -> c <> None -> t' = t /\ s' = s.
Proof.
  intros HC H HN. destruct c as [m|]; [|contradiction]. destruct HC as (o & r & HR & HS & _).
  unfold applySwapOperations in H. rewrite HR in H. cbn [apply_swaps] in H. rewrite HS in H. injection H as <- <-.
  split; [|reflexivity]. rewrite <- HR. now destruct t.
Qed.

Lemma look_inv2 : is_lookahead sch = true -> inv2 = true. Proof. intros H. now apply hidden. Qed.

Lemma swaps1_inv x : Inv x -> total (swaps1 Ph Lg G M pheq pk gswapt ST k x) = total x /\ Inv (swaps1 Ph Lg G M pheq pk gswapt ST k x) /\
  (fin (xt1 (swaps1 Ph Lg G M pheq pk gswapt ST k x)) = false -> exists o r, rest (xt1 (swaps1 Ph Lg G M pheq pk gswapt ST k x)) = o :: r /\ is_swap o = false) /\
  length (rest (xt1 (swaps1 Ph Lg G M pheq pk gswapt ST k x))) <= length (rest (xt1 x)) /\ 
  xt2 (swaps1 Ph Lg G M pheq pk gswapt ST k x) = xt2 x /\ xtick (swaps1 Ph Lg G M pheq pk gswapt ST k x) = xtick x.
Proof.
  intros (A1 & A2 & HC). unfold swaps1, on1. destruct (applySwapOperations _ _ _ _ _ _ _ _ _ _ (xt1 x) (xs x)) as [t s] eqn:E.
  destruct (swapops_value _ _ _ _ _ _ _ _ _ E) as (V & A & N). split; [now apply total_on1|]. cbn [x_t1 x_t2 x_c1 x_c2 x_tick].
  split; [|split; [exact N|split; [eapply ahead_len; exact A|split; reflexivity]]].
  split; [eapply ahead_trans; eassumption|]. split; [exact A2|]. intros HL. destruct (HC HL) as [C1 C2]. split; [|exact C2].
  destruct (xc1 x) as [m|] eqn:EC; [|exact I]. destruct (cached_swaps _ _ (Some m) _ _ _ _ C1 E ltac:(discriminate)) as [-> ->]. exact C1.
Qed.
Lemma swaps2_inv x : Inv x -> total (swaps2 Ph Lg G M pheq pk gswapt ST k x) = total x /\ Inv (swaps2 Ph Lg G M pheq pk gswapt ST k x) /\
  (fin (xt2 (swaps2 Ph Lg G M pheq pk gswapt ST k x)) = false -> exists o r, rest (xt2 (swaps2 Ph Lg G M pheq pk gswapt ST k x)) = o :: r /\ is_swap o = false) /\
  length (rest (xt2 (swaps2 Ph Lg G M pheq pk gswapt ST k x))) <= length (rest (xt2 x)) /\ 
  xt1 (swaps2 Ph Lg G M pheq pk gswapt ST k x) = xt1 x /\ xtick (swaps2 Ph Lg G M pheq pk gswapt ST k x) = xtick x.
Proof.
  intros (A1 & A2 & HC). unfold swaps2, on2. destruct (applySwapOperations _ _ _ _ _ _ _ _ _ _ (xt2 x) (xs x)) as [t s] eqn:E.
  destruct (swapops_value _ _ _ _ _ _ _ _ _ E) as (V & A & N). split; [now apply total_on2|]. cbn [x_t1 x_t2 x_c1 x_c2 x_tick].
  split; [|split; [exact N|split; [eapply ahead_len; exact A|split; reflexivity]]].
  split; [exact A1|]. split; [eapply ahead_trans; eassumption|]. intros HL. destruct (HC HL) as [C1 C2]. split; [exact C1|].
  destruct (xc2 x) as [m|] eqn:EC; [|exact I]. pose proof (look_inv2 HL) as HI. rewrite HI in E.
  destruct (cached_swaps _ _ (Some m) _ _ _ _ C2 E ltac:(discriminate)) as [-> ->]. exact C2.
Qed.

Lemma adv1_inv n x : is_lookahead sch = false \/ n = 0%N -> Inv x ->
  total (advance1 Ph Lg G M pheq pk gswapt ST k n x) = total x /\ Inv (advance1 Ph Lg G M pheq pk gswapt ST k n x) /\
  length (rest (xt1 (advance1 Ph Lg G M pheq pk gswapt ST k n x))) <= length (rest (xt1 x)) /\
  (n <> 0%N -> fin (xt1 x) = false -> length (rest (xt1 (advance1 Ph Lg G M pheq pk gswapt ST k n x))) < length (rest (xt1 x))) /\
  xt2 (advance1 Ph Lg G M pheq pk gswapt ST k n x) = xt2 x /\ xtick (advance1 Ph Lg G M pheq pk gswapt ST k n x) = xtick x.
Proof.
  intros HL (A1 & A2 & HC). unfold advance1, on1, advance.
  destruct (advance_fuel _ _ _ _ _ _ _ _ _ _ _ n (xt1 x) (xs x)) as [t s] eqn:E.
  destruct (advance_value _ _ _ _ _ _ _ _ _ _ _ E) as (V & A & N). split; [now apply total_on1|]. cbn [x_t1 x_t2 x_c1 x_c2 x_tick].
  split; [|split; [eapply ahead_len; exact A|split; [|split; reflexivity]]].
  - split; [eapply ahead_trans; eassumption|]. split; [exact A2|]. intros HH. destruct HL as [HL| ->]; [congruence|].
    destruct (length (rest (xt1 x))) eqn:EL; cbn [advance_fuel N.eqb orb] in E; injection E as <- <-; now apply HC.
  - intros HN HF. apply N; [exact HN| |exact HF]. apply fin_rest_f in HF. destruct HF as (o & r & ->). cbn. lia.
Qed.
Lemma adv2_inv n x : is_lookahead sch = false \/ n = 0%N -> Inv x ->
  total (advance2 Ph Lg G M pheq pk gswapt ST k n x) = total x /\ Inv (advance2 Ph Lg G M pheq pk gswapt ST k n x) /\
  length (rest (xt2 (advance2 Ph Lg G M pheq pk gswapt ST k n x))) <= length (rest (xt2 x)) /\
  xt1 (advance2 Ph Lg G M pheq pk gswapt ST k n x) = xt1 x /\ xtick (advance2 Ph Lg G M pheq pk gswapt ST k n x) = xtick x.
Proof.
  intros HL (A1 & A2 & HC). unfold advance2, on2, advance.
  destruct (advance_fuel _ _ _ _ _ _ _ _ _ _ _ n (xt2 x) (xs x)) as [t s] eqn:E.
  destruct (advance_value _ _ _ _ _ _ _ _ _ _ _ E) as (V & A & N). split; [now apply total_on2|]. cbn [x_t1 x_t2 x_c1 x_c2 x_tick].
  split; [|split; [eapply ahead_len; exact A|split; reflexivity]].
  split; [exact A1|]. split; [eapply ahead_trans; eassumption|]. intros HH. destruct HL as [HL| ->]; [congruence|].
  destruct (length (rest (xt2 x))) eqn:EL; cbn [advance_fuel N.eqb orb] in E; injection E as <- <-; now apply HC.
Qed.

Lemma ahead_In inv c (t : tm) o r : ahead pheq pk inv (tm_reset _ _ _ c) t -> rest t = o :: r -> In o (c_ops _ _ _ c).
Proof. intros (l & H & _) HR. cbn in H. rewrite H, HR. apply in_elt. Qed.

(** caching an operation *)
Lemma cache1_inv x m y : is_lookahead sch = true -> Inv x -> (exists o r, rest (xt1 x) = o :: r /\ is_swap o = false) ->
  cache1 Ph Lg G M pheq pk ST x = (m, y) ->
  Inv y /\ total y = total x /\ xs y = xs x /\ xt2 y = xt2 x /\ xc2 y = xc2 x /\ rest (xt1 y) = rest (xt1 x) /\ xtick y = xtick x /\
  exists o r, rest (xt1 y) = o :: r /\ is_swap o = false /\ getDD false o (tperm (xt1 y)) = (m, tperm (xt1 y)).
Proof.
  intros HL HI (o & r & HR & HS) H. pose proof HI as (A1 & A2 & HC). destruct (HC HL) as [C1 C2].
  unfold cache1 in H. destruct (xc1 x) as [m'|] eqn:EC.
  - injection H as <- <-. split; [exact HI|]. repeat split; auto.
  - rewrite HR in H. destruct (getDD false o (tperm (xt1 x))) as [m0 p] eqn:E. injection H as <- <-.
    assert (p = tperm (xt1 x)) as ->.
    { destruct (hidden HL) as (_ & HH & _). destruct (HH o (ahead_In _ _ _ _ _ A1 HR)) as [HF|(a & b & ->)].
      - pose proof (swap_free_perm pheq pk false o (tperm (xt1 x)) HF) as HP. rewrite E in HP. exact HP.
      - discriminate. }
    cbn [x_s x_t1 x_t2 x_c1 x_c2 x_tick t_rest t_perm].
    assert (HT : mkTm (o :: r) (tperm (xt1 x)) = xt1 x) by (rewrite <- HR; now destruct (xt1 x)).
    rewrite HT. split; [|split; [|repeat split; auto]].
    + split; [exact A1|]. split; [exact A2|]. intros _. cbn [x_c1 x_c2 x_t1 x_t2]. split; [|exact C2]. exists o, r. auto.
    + unfold total. cbn [x_s x_t1 x_t2]. reflexivity.
    + exists o, r. split; [reflexivity|]. auto.
Qed.
Lemma cache2_inv x m y : is_lookahead sch = true -> Inv x -> (exists o r, rest (xt2 x) = o :: r /\ is_swap o = false) ->
  cache2 Ph Lg G M pheq pk ST x = (m, y) ->
  Inv y /\ total y = total x /\ xs y = xs x /\ xt1 y = xt1 x /\ xc1 y = xc1 x /\ rest (xt2 y) = rest (xt2 x) /\ xtick y = xtick x /\
  exists o r, rest (xt2 y) = o :: r /\ is_swap o = false /\ getDD true o (tperm (xt2 y)) = (m, tperm (xt2 y)).
Proof.
  intros HL HI (o & r & HR & HS) H. pose proof HI as (A1 & A2 & HC). destruct (HC HL) as [C1 C2].
  unfold cache2 in H. destruct (xc2 x) as [m'|] eqn:EC.
  - injection H as <- <-. split; [exact HI|]. repeat split; auto.
  - rewrite HR in H. destruct (getDD true o (tperm (xt2 x))) as [m0 p] eqn:E. injection H as <- <-.
    assert (p = tperm (xt2 x)) as ->.
    { destruct (hidden HL) as (_ & _ & HH). destruct (HH o (ahead_In _ _ _ _ _ A2 HR)) as [HF|(a & b & ->)].
      - pose proof (swap_free_perm pheq pk true o (tperm (xt2 x)) HF) as HP. rewrite E in HP. exact HP.
      - discriminate. }
    cbn [x_s x_t1 x_t2 x_c1 x_c2 x_tick t_rest t_perm].
    assert (HT : mkTm (o :: r) (tperm (xt2 x)) = xt2 x) by (rewrite <- HR; now destruct (xt2 x)).
    rewrite HT. split; [|split; [|repeat split; auto]].
    + split; [exact A1|]. split; [exact A2|]. intros _. cbn [x_c1 x_c2 x_t1 x_t2]. split; [exact C1|]. exists o, r. auto.
    + unfold total. cbn [x_s x_t1 x_t2]. reflexivity.
    + exists o, r. split; [reflexivity|]. auto.
Qed.

Lemma adv_iter_value inv (act : M -> ST -> ST) t s m o r : rest t = o :: r -> getDD inv o (tperm t) = (m, tperm t) ->
  value pheq pk act inv t s = value pheq pk act inv (advanceIterator _ _ _ t) (act m s) /\
  ahead pheq pk inv t (advanceIterator _ _ _ t).
Proof.
  intros HR HG. unfold value, advanceIterator. rewrite HR. cbn [t_rest t_perm tl DDSpec.trace]. rewrite HG.
  split; [destruct (trace inv r (tperm t)); reflexivity|]. exists [o]. cbn [t_rest t_perm]. split; [exact HR|]. cbn. now rewrite HG.
Qed.

Lemma lookahead_inv x : is_lookahead sch = true -> Inv x ->
  (exists o r, rest (xt1 x) = o :: r /\ is_swap o = false) -> (exists o r, rest (xt2 x) = o :: r /\ is_swap o = false) ->
  let y := lookahead Ph Lg G M pheq pk ST k x in
  Inv y /\ total y = total x /\ left y < left x /\ xtick y = xtick x.
Proof.
  intros HL HI H1 H2. cbv zeta. unfold lookahead. destruct (cache1 _ _ _ _ _ _ _ x) as [m1 x1] eqn:E1.
  destruct (cache1_inv _ _ _ HL HI H1 E1) as (I1 & T1 & S1 & T2' & C2' & R1' & K1 & o1 & r1 & R1 & SW1 & G1).
  destruct (cache2 _ _ _ _ _ _ _ x1) as [m2 x2] eqn:E2. rewrite <- T2' in H2.
  destruct (cache2_inv _ _ _ HL I1 H2 E2) as (I2 & T2 & S2 & T1' & C1' & R2' & K2 & o2 & r2 & R2 & SW2 & G2).
  rewrite <- T1' in R1, G1. pose proof I2 as (A1 & A2 & HC). destruct (HC HL) as [CC1 CC2].
  destruct (_ <=? _)%N.
  - destruct (adv_iter_value false act1 _ (xs x2) _ _ _ R1 G1) as [V A].
    split; [|split; [|split]].
    + split; [eapply ahead_trans; eassumption|]. split; [exact A2|]. intros _. split; [exact I|exact CC2].
    + rewrite <- T1, <- T2. unfold total. cbn [x_s x_t1 x_t2]. rewrite V. unfold value. cbn [fst snd]. reflexivity.
    + cbn [x_t1 x_t2]. unfold advanceIterator. cbn [t_rest]. rewrite R1. cbn [tl].
      rewrite <- R1', <- T1', R1. rewrite R2', T2'. cbn [length]. lia.
    + cbn [x_tick]. congruence.
  - destruct (adv_iter_value true act2 _ (xs x2) _ _ _ R2 G2) as [V A]. rewrite <- (look_inv2 HL) in V, A.
    split; [|split; [|split]].
    + split; [exact A1|]. split; [eapply ahead_trans; eassumption|]. intros _. split; [exact CC1|exact I].
    + rewrite <- T1, <- T2. unfold total. cbn [x_s x_t1 x_t2]. unfold value in *. cbn [fst snd] in *. unfold advanceIterator in *. cbn [t_rest t_perm] in *.
      injection V as V1 V2. f_equal; [f_equal; congruence|]. rewrite <- !acts_comm. now rewrite V2.
    + cbn [x_t1 x_t2]. unfold advanceIterator. cbn [t_rest]. rewrite R2. cbn [tl].
      rewrite T1', R1', <- T2', <- R2', R2. cbn [length]. lia.
    + cbn [x_tick]. congruence.
Qed.

Lemma skip_inv x : is_lookahead sch = false -> Inv x -> k_isid _ _ k (xs x) = true ->
  (exists o r, rest (xt1 x) = o :: r /\ is_swap o = false) -> (exists o r, rest (xt2 x) = o :: r /\ is_swap o = false) ->
  gatesAreIdentical Ph Lg G M pheq geqb ST x = true ->
  let y := mkX _ _ _ _ _ (xs x) (advanceIterator _ _ _ (xt1 x)) (advanceIterator _ _ _ (xt2 x)) (xc1 x) (xc2 x) (xtick x) in
  Inv y /\ total y = total x /\ left y < left x.
Proof.
  intros HL (A1 & A2 & _) HID (o1 & r1 & R1 & SW1) (o2 & r2 & R2 & SW2) HG. cbv zeta.
  unfold gatesAreIdentical in HG. rewrite R1, R2 in HG.
  destruct A1 as (l1 & L1 & P1). destruct A2 as (l2 & L2 & P2). cbn [tm_reset t_rest t_perm] in *.
  destruct (skips HL l1 o1 r1 l2 o2 r2 (xs x)) as (F1 & F2 & HS); auto; [now rewrite L1, R1|now rewrite L2, R2|].
  rewrite <- P1, <- P2 in HS.
  pose proof (swap_free_perm pheq pk false o1 (tperm (xt1 x)) F1) as Q1.
  pose proof (swap_free_perm pheq pk inv2 o2 (tperm (xt2 x)) F2) as Q2.
  destruct (getDD false o1 (tperm (xt1 x))) as [m1 p1] eqn:E1. destruct (getDD inv2 o2 (tperm (xt2 x))) as [m2 p2] eqn:E2.
  cbn [fst snd] in *. subst p1 p2.
  destruct (adv_iter_value false act1 _ (xs x) _ _ _ R1 E1) as [V1 AA1].
  destruct (adv_iter_value inv2 act2 _ (act1 m1 (xs x)) _ _ _ R2 E2) as [V2 AA2].
  split; [|split].
  - split; [|split].
    + eapply ahead_trans; [|exact AA1]. exists l1. cbn. auto.
    + eapply ahead_trans; [|exact AA2]. exists l2. cbn. auto.
    + congruence.
  - symmetry. unfold total. cbn [x_s x_t1 x_t2]. rewrite V1. unfold value in *. cbn [fst snd] in *. unfold advanceIterator in *. cbn [t_rest t_perm] in *. injection V2 as V2a V2b.
    f_equal; [f_equal|]. 1: exact V2a.
    rewrite <- !acts_comm, V2b. now rewrite HS.
  - cbn [x_t1 x_t2]. unfold advanceIterator. cbn [t_rest]. rewrite R1, R2. cbn. lia.
Qed.

Hypothesis sch_ok : scheme_for c1 c2 sch.

(** the scheme makes the first circuit advance *)
Lemma query_inv x a1 a2 y : Inv x ->
  (exists o r, rest (xt1 x) = o :: r /\ is_swap o = false) -> (exists o r, rest (xt2 x) = o :: r /\ is_swap o = false) ->
  query Ph Lg G M pheq pk view ST k sch x = ((a1, a2), y) ->
  Inv y /\ total y = total x /\ xtick y = xtick x /\ (is_lookahead sch = false \/ (a1 = 0%N /\ a2 = 0%N)) /\
  ((y = x /\ a1 <> 0%N) \/ left y < left x).
Proof.
  intros HI H1 H2 H. destruct H1 as (o1 & r1 & R1 & SW1). destruct H2 as (o2 & r2 & R2 & SW2). unfold query in H.
  pose proof (lookahead_inv x) as HLA. pose proof sch_ok as HSC. clear skips hidden sch_ok. destruct sch as [n1 n2| |fu|tb fu|].
  - injection H as <- <- <-. split; [exact HI|]. split; [reflexivity|]. split; [reflexivity|]. split; [now left|]. left. split; [reflexivity|].
    destruct HSC as [-> _]. destruct HI as ((l & L & _) & _). cbn in L. rewrite L, R1, app_length. cbn. lia.
  - injection H as <- <- <-. split; [exact HI|]. split; [reflexivity|]. split; [reflexivity|]. split; [now left|]. left. split; [reflexivity|discriminate].
  - rewrite R1 in H. destruct (proportional_pos fu (view o1) (N.of_nat (length (o1 :: r1))) (N.of_nat (length (rest (xt2 x))))) as [HQ _].
    destruct (proportional_scheme fu (view o1) _ _) as [b1 b2]. injection H as <- <- <-.
    split; [exact HI|]. split; [reflexivity|]. split; [reflexivity|]. split; [now left|]. left. split; [reflexivity|]. cbn in HQ. lia.
  - rewrite R1 in H. pose proof (gatecost_pos tb fu (view o1)) as HQ. destruct (gatecost_scheme tb fu (view o1)) as [b1 b2].
    injection H as <- <- <-.
    split; [exact HI|]. split; [reflexivity|]. split; [reflexivity|]. split; [now left|]. left. split; [reflexivity|]. cbn in HQ. lia.
  - injection H as <- <- <-. destruct (HLA eq_refl HI) as (I' & T' & L' & K'); eauto. split; [exact I'|]. repeat split; auto.
Qed.

(** ** termination, for every cancellation pattern *)
Lemma tick_inv x t : Inv x -> Inv (mkX _ _ _ _ _ (xs x) (xt1 x) (xt2 x) (xc1 x) (xc2 x) t).
Proof. exact (fun H => H). Qed.

Lemma execute_step done f x : monotone done -> Inv x ->
  (both_left Ph Lg G M ST x = false /\ execute done (S f) x = Some x) \/
  (done (xtick x) = true /\ execute done (S f) x <> None) \/
  exists y, 2 <= left x /\ done (xtick x) = false /\ execute done (S f) x = execute done f y /\ Inv y /\ (xtick x < xtick y) /\
            (done (xtick y - 1) = true \/ left y < left x) /\ ((forall j, xtick x <= j < xtick y -> done j = false) -> total y = total x).
Proof.
  intros HM HI. remember (execute done (S f) x) as R eqn:ER. cbn [DDCheck.execute] in ER.
  destruct (both_left _ _ _ _ _ x) eqn:EB; cbn [negb] in ER; [|left; auto].
  unfold isDone at 1 in ER. destruct (done (xtick x)) eqn:ED; [right; left; split; [reflexivity|rewrite ER; discriminate]|]. right; right.
  pose proof HI as HI0. apply (tick_inv x (S (xtick x))) in HI.
  set (x0 := mkX _ _ _ _ _ (xs x) (xt1 x) (xt2 x) (xc1 x) (xc2 x) (S (xtick x))) in *.
  destruct (swaps1_inv x0 HI) as (T1 & I1 & N1 & L1 & E1 & K1). set (x1 := swaps1 _ _ _ _ _ _ _ _ _ x0) in *.
  destruct (swaps2_inv x1 I1) as (T2 & I2 & N2 & L2 & E2 & K2). set (x2 := swaps2 _ _ _ _ _ _ _ _ _ x1) in *.
  assert (HT : total x2 = total x) by (rewrite T2, T1; reflexivity).
  assert (HLL : left x2 <= left x) by (rewrite E2, E1 in *; change (xt1 x0) with (xt1 x) in *; change (xt2 x0) with (xt2 x) in *; lia).
  assert (HK : xtick x2 = S (xtick x)) by (rewrite K2, K1; reflexivity).
  apply both_left_spec in EB. destruct EB as [B1 B2]. apply fin_rest_f in B1, B2. destruct B1 as (ob1 & rb1 & B1). destruct B2 as (ob2 & rb2 & B2).
  assert (H2L : 2 <= left x) by (rewrite B1, B2; cbn; lia).
  destruct (both_left _ _ _ _ _ x2) eqn:EB2; cbn [negb] in ER.
  2:{ exists x2. split; [exact H2L|]. split; [reflexivity|]. split; [exact ER|]. split; [exact I2|]. split; [lia|]. split; [|intros _; exact HT]. right.
      unfold both_left in EB2. apply andb_false_iff in EB2. rewrite !negb_false_iff, !fin_rest in EB2.
      rewrite E1, E2 in *. change (xt1 x0) with (xt1 x) in *. change (xt2 x0) with (xt2 x) in *. rewrite B1, B2 in *. cbn [length] in *.
      destruct EB2 as [->| ->]; cbn [length]; lia. }
  apply both_left_spec in EB2. destruct EB2 as [F1 F2].
  assert (NS2 : exists o r, rest (xt2 x2) = o :: r /\ is_swap o = false) by now apply N2.
  assert (NS1 : exists o r, rest (xt1 x2) = o :: r /\ is_swap o = false) by (rewrite E2 in *; now apply N1).
  unfold isDone at 1 in ER. destruct (done (xtick x2)) eqn:ED2.
  { eexists. split; [exact H2L|]. split; [reflexivity|]. split; [exact ER|]. split; [apply (tick_inv x2 _ I2)|]. cbn [x_tick]. split; [lia|]. 
    replace (S (xtick x2) - 1) with (xtick x2) by lia. split; [now left|]. intros _. rewrite <- HT. reflexivity. }
  set (x3 := mkX _ _ _ _ _ (xs x2) (xt1 x2) (xt2 x2) (xc1 x2) (xc2 x2) (S (xtick x2))) in *.
  assert (I3 : Inv x3) by apply I2. assert (T3 : total x3 = total x) by (rewrite <- HT; reflexivity).
  destruct (k_isid _ _ k (xs x3) && negb (is_lookahead sch) && gatesAreIdentical _ _ _ _ _ _ _ x3) eqn:EK.
  { apply andb_true_iff in EK. destruct EK as [EK EG]. apply andb_true_iff in EK. destruct EK as [EI EL]. apply negb_true_iff in EL.
    destruct (skip_inv x3 EL I3 EI NS1 NS2 EG) as (IY & TY & LY). eexists. split; [exact H2L|]. split; [reflexivity|]. split; [exact ER|]. split; [exact IY|]. cbn [x_tick].
    split; [change (xtick x3) with (S (xtick x2)); lia|]. split; [right|intros _; congruence]. change (left x3) with (left x2) in LY. lia. }
  destruct (query _ _ _ _ _ _ _ _ _ _ x3) as [[a1 a2] x4] eqn:EQ.
  destruct (query_inv x3 a1 a2 x4 I3 NS1 NS2 EQ) as (I4 & T4 & K4 & HLK & HP).
  assert (H01 : is_lookahead sch = false \/ a1 = 0%N) by tauto. assert (H02 : is_lookahead sch = false \/ a2 = 0%N) by tauto.
  unfold isDone at 1 in ER. set (x4' := mkX _ _ _ _ _ (xs x4) (xt1 x4) (xt2 x4) (xc1 x4) (xc2 x4) (S (xtick x4))) in *.
  assert (I4' : Inv x4') by apply I4.
  assert (K4' : xtick x4' = S (S (S (xtick x)))) by (cbn [x4' x_tick]; rewrite K4; cbn [x3 x_tick]; lia).
  destruct (adv1_inv a1 x4' H01 I4') as (T5 & I5 & L5 & P5 & E5 & K5).
  set (x5 := if done (xtick x4) then x4' else advance1 Ph Lg G M pheq pk gswapt ST k a1 x4') in *.
  assert (I5' : Inv x5) by (unfold x5; destruct (done (xtick x4)); assumption).
  assert (L5' : left x5 <= left x4) by (unfold x5; destruct (done (xtick x4)); [reflexivity|rewrite E5; change (xt2 x4') with (xt2 x4); change (xt1 x4') with (xt1 x4) in L5; lia]).
  assert (T5' : total x5 = total x).
  { unfold x5. destruct (done (xtick x4)); [change (total x4') with (total x4)|rewrite T5; change (total x4') with (total x4)]; congruence. }
  assert (K5' : xtick x5 = S (S (S (xtick x)))) by (unfold x5; destruct (done (xtick x4)); congruence).
  unfold isDone at 1 in ER. set (x5' := mkX _ _ _ _ _ (xs x5) (xt1 x5) (xt2 x5) (xc1 x5) (xc2 x5) (S (xtick x5))) in *.
  assert (I5'' : Inv x5') by apply I5'. destruct (adv2_inv a2 x5' H02 I5'') as (T6 & I6 & L6 & E6 & K6).
  exists (if done (xtick x5) then x5' else advance2 Ph Lg G M pheq pk gswapt ST k a2 x5').
  set (x6 := if done (xtick x5) then x5' else advance2 Ph Lg G M pheq pk gswapt ST k a2 x5').
  assert (K6' : xtick x6 = S (S (S (S (xtick x))))) by (unfold x6; destruct (done (xtick x5)); [cbn; lia|rewrite K6; cbn; lia]).
  split; [exact H2L|]. split; [reflexivity|]. split; [exact ER|]. split; [unfold x6; destruct (done (xtick x5)); assumption|]. split; [lia|].
  split; [|intros _; unfold x6; destruct (done (xtick x5)); [|rewrite T6]; rewrite <- T5'; reflexivity].
  rewrite K6'. replace (S (S (S (S (xtick x)))) - 1) with (xtick x5) by lia. destruct (done (xtick x5)) eqn:ED5; [now left|].
  destruct (done (xtick x4)) eqn:ED4.
  - exfalso. apply HM in ED4. replace (S (xtick x4)) with (xtick x5) in ED4 by (rewrite K4 in *; cbn [x4' x_tick] in K4'; lia). congruence.
  - right. unfold x6. assert (HL6 : left (advance2 Ph Lg G M pheq pk gswapt ST k a2 x5') <= left x5).
    { rewrite E6. change (xt1 x5') with (xt1 x5). change (xt2 x5') with (xt2 x5) in L6. lia. }
    destruct HP as [[-> HA]|HP]; [|change (left x3) with (left x2) in HP; lia].
    assert (F : fin (xt1 x4') = false) by exact F1. specialize (P5 HA F).
    assert (left x5 < left x3); [|change (left x3) with (left x2) in *; lia].
    assert (HX5 : x5 = advance1 Ph Lg G M pheq pk gswapt ST k a1 x4') by (unfold x5; rewrite ?ED4; reflexivity).
    rewrite HX5, E5. change (xt2 x4') with (xt2 x3). change (xt1 x4') with (xt1 x3) in P5. lia.
Qed.

Lemma execute_total done fuel x : monotone done -> Inv x -> left x < fuel \/ (done (xtick x) = true /\ 0 < fuel) -> execute done fuel x <> None.
Proof.
  intros HM. revert x. induction fuel as [|f IH]; intros x HI HF; [lia|].
  destruct (execute_step done f x HM HI) as [[_ ->]|[[_ H]|(y & H2 & HD0 & -> & IY & KY & [HD|HLY] & _)]]; [discriminate|exact H| |].
  - destruct HF as [HF|[HF _]]; [|congruence]. apply IH; [exact IY|]. right. split; [|lia].
    apply HM in HD. now replace (S (xtick y - 1)) with (xtick y) in HD by lia.
  - destruct HF as [HF|[HF _]]; [|congruence]. apply IH; [exact IY|]. left. lia.
Qed.

(** ** the uncancelled loop *)
Lemma execute_never fuel x y : Inv x -> execute never fuel x = Some y ->
  Inv y /\ total y = total x /\ both_left _ _ _ _ _ y = false.
Proof.
  revert x. induction fuel as [|f IH]; intros x HI H; [discriminate|].
  destruct (execute_step never f x ltac:(intros ? ?; discriminate) HI) as [[EB E]|[[E _]|(z & _ & _ & E & IZ & _ & _ & TZ)]].
  - rewrite E in H. injection H as <-. auto.
  - discriminate.
  - rewrite E in H. destruct (IH _ IZ H) as (I' & T' & B'). split; [exact I'|]. split; [|exact B']. rewrite T'. apply TZ. reflexivity.
Qed.

Lemma finish1_inv x : Inv x -> rest (xt1 (finish1 Ph Lg G M pheq pk gswapt ST k x)) = [] /\ total (finish1 Ph Lg G M pheq pk gswapt ST k x) = total x
  /\ xt2 (finish1 Ph Lg G M pheq pk gswapt ST k x) = xt2 x.
Proof.
  intros (A1 & A2 & HC). unfold finish1, on1. destruct (tm_finish _ _ _ _ _ _ _ _ _ _ (xt1 x) (xs x)) as [t s] eqn:E.
  destruct (tm_finish_value _ _ _ _ _ _ _ _ _ E) as (R & V & A). split; [exact R|]. split; [now apply total_on1|reflexivity].
Qed.
Lemma finish2_inv x : rest (xt2 (finish2 Ph Lg G M pheq pk gswapt ST k x)) = [] /\ total (finish2 Ph Lg G M pheq pk gswapt ST k x) = total x
  /\ xt1 (finish2 Ph Lg G M pheq pk gswapt ST k x) = xt1 x.
Proof.
  unfold finish2, on2. destruct (tm_finish _ _ _ _ _ _ _ _ _ _ (xt2 x) (xs x)) as [t s] eqn:E.
  destruct (tm_finish_value _ _ _ _ _ _ _ _ _ E) as (R & V & A). split; [exact R|]. split; [now apply total_on2|reflexivity].
Qed.

Lemma total_done x : rest (xt1 x) = [] -> rest (xt2 x) = [] -> total x = (tperm (xt1 x), tperm (xt2 x), xs x).
Proof. intros H1 H2. unfold total, value. rewrite H1, H2. reflexivity. Qed.

(** the state after finish() of an uncancelled run *)
Theorem finish_never fuel x y : Inv x -> execute never fuel x = Some y ->
  let z := finish Ph Lg G M pheq pk gswapt ST k never y in
  rest (xt1 z) = [] /\ rest (xt2 z) = [] /\ (tperm (xt1 z), tperm (xt2 z), xs z) = total x.
Proof.
  intros HI H. destruct (execute_never _ _ _ HI H) as (IY & TY & _). cbv zeta. unfold finish. cbn [isDone never].
  set (y' := if k_alt _ _ k then _ else _).
  assert (HY : rest (xt1 y') = [] /\ total y' = total x).
  { unfold y'. destruct (k_alt _ _ k).
    - destruct (finish1_inv y IY) as (R & T & _). split; [exact R|congruence].
    - match goal with |- context [finish1 _ _ _ _ _ _ _ _ _ ?q] => destruct (finish1_inv q IY) as (R & T & _) end. split; [exact R|]. rewrite T. exact TY. }
  destruct HY as [R1 T1].
  match goal with |- context [finish2 _ _ _ _ _ _ _ _ _ ?q] => destruct (finish2_inv q) as (R2 & T2 & E2) end.
  assert (R1' : rest (xt1 (finish2 Ph Lg G M pheq pk gswapt ST k (mkX Ph Lg G M ST (xs y') (xt1 y') (xt2 y') (xc1 y') (xc2 y') (S (xtick y'))))) = []).
  { rewrite E2. exact R1. }
  split; [exact R1'|]. split; [exact R2|]. rewrite <- total_done by assumption. rewrite T2. exact T1.
Qed.

Lemma initial_inv s0 : Inv (initial _ _ _ _ ST c1 c2 s0).
Proof. split; [apply ahead_refl|]. split; [apply ahead_refl|]. intros _. split; exact I. Qed.
Lemma initial_total s0 : total (initial _ _ _ _ ST c1 c2 s0) =
  (snd (trace false (c_ops _ _ _ c1) (c_layout _ _ _ c1)), snd (trace inv2 (c_ops _ _ _ c2) (c_layout _ _ _ c2)),
   acts act2 (fst (trace inv2 (c_ops _ _ _ c2) (c_layout _ _ _ c2))) (acts act1 (fst (trace false (c_ops _ _ _ c1) (c_layout _ _ _ c1))) s0)).
Proof. reflexivity. Qed.

(** the loop bound used by [run] always suffices *)
Theorem bound_ok done s0 : monotone done -> execute done (loop_bound _ _ _ c1 c2) (initial _ _ _ _ ST c1 c2 s0) <> None.
Proof. intros HM. apply execute_total; [exact HM|apply initial_inv|]. left. unfold loop_bound. cbn. lia. Qed.
End P.
