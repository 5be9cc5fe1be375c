(** Lemmas about the decision-diagram checkers: the uncancelled run. *)
From Coq Require Import List Bool NArith Arith Lia.
From Verif Require Import Criterion Schemes SchemesProofs2 DDCheck DDSpec.
Import ListNotations.

Section P.
Context {Ph Lg G M : Type}.
Variables (pheq : Ph -> Ph -> bool) (lgeq : Lg -> Lg -> bool) (pk : pkg Ph Lg G M) (gswapt : G -> bool) (geqb : G -> G -> bool)
          (view : op Ph G -> opview).
Notation op := (op Ph G).
Notation perm := (perm Ph Lg).
Notation circuit := (circuit Ph Lg G).
Notation tm := (tm Ph Lg G).
Notation getDD := (getDD Ph Lg G M pheq pk).
Notation trace := (trace pheq pk).
Notation rest := (t_rest Ph Lg G).
Notation tperm := (t_perm Ph Lg G).
Notation mkTm := (mkTm Ph Lg G).
Notation is_swap := (is_swap Ph G gswapt).

(** ** lists of operations *)
Lemma trace_app inv l1 l2 p :
  trace inv (l1 ++ l2) p = (fst (trace inv l1 p) ++ fst (trace inv l2 (snd (trace inv l1 p))), snd (trace inv l2 (snd (trace inv l1 p)))).
Proof.
  revert p. induction l1 as [|o l1 IH]; intros p; cbn [app DDSpec.trace fst snd].
  - destruct (trace inv l2 p); reflexivity.
  - destruct (getDD inv o p) as [m p']. rewrite IH. destruct (trace inv l1 p') as [ms pf]. reflexivity.
Qed.
Lemma acts_app {ST} (act : M -> ST -> ST) l1 l2 s : acts act (l1 ++ l2) s = acts act l2 (acts act l1 s).
Proof. unfold acts. apply fold_left_app. Qed.

(** induction over operations with nested lists *)
Definition op_rect' (Q : op -> Prop) (HG : forall g, Q (OGate _ _ g)) (HS : forall a b, Q (OSwap _ _ a b))
  (HC : forall l, Forall Q l -> Q (OComp _ _ l)) : forall o, Q o :=
  fix go o := match o with
  | OGate _ _ g => HG g | OSwap _ _ a b => HS a b
  | OComp _ _ l => HC l ((fix gol l := match l return Forall Q l with [] => Forall_nil _ | o :: r => Forall_cons _ (go o) (gol r) end) l)
  end.

Lemma getDD_comp inv l p : getDD inv (OComp _ _ l) p =
  (fold_left (fun e m => if inv then p_mul _ _ _ _ pk e m else p_mul _ _ _ _ pk m e) (fst (trace inv l p)) (p_one _ _ _ _ pk), snd (trace inv l p)).
Proof.
  cbn [DDCheck.getDD]. generalize (p_one _ _ _ _ pk) as e. revert p.
  induction l as [|o l IH]; intros p e; [reflexivity|]. cbn [DDSpec.trace]. destruct (getDD inv o p) as [m p'] eqn:E.
  rewrite IH. destruct (trace inv l p') as [ms pf]. reflexivity.
Qed.

Lemma swap_free_perm inv o p : swap_free o = true -> snd (getDD inv o p) = p.
Proof.
  revert p. induction o as [g|a b|l IH] using op_rect'; intros p H; [reflexivity|discriminate|].
  rewrite getDD_comp. cbn [snd]. cbn [swap_free] in H. revert p. induction IH as [|o l Ho Hl IHl]; intros p; [reflexivity|].
  cbn [forallb] in H. apply andb_true_iff in H. destruct H as [H1 H2]. cbn [DDSpec.trace].
  specialize (Ho p H1). destruct (getDD inv o p) as [m p']. cbn in Ho. subst p'. specialize (IHl H2 p). destruct (trace inv l p). exact IHl.
Qed.

(** the tracked permutation does not depend on whether inverses are taken *)
Lemma trace_perm_inv l p : Forall (fun o => forall p, snd (getDD true o p) = snd (getDD false o p)) l ->
  snd (trace true l p) = snd (trace false l p).
Proof.
  intros H. revert p. induction H as [|o l HO HL IH]; intros p; [reflexivity|]. cbn [DDSpec.trace].
  specialize (HO p). destruct (getDD true o p) as [m1 p1], (getDD false o p) as [m2 p2]. cbn in HO. subst p1.
  specialize (IH p2). destruct (trace true l p2), (trace false l p2). exact IH.
Qed.
Lemma getDD_perm_inv o : forall p, snd (getDD true o p) = snd (getDD false o p).
Proof.
  induction o as [g|a b|l IH] using op_rect'; intros p; try reflexivity. rewrite !getDD_comp. cbn [snd]. now apply trace_perm_inv.
Qed.
Lemma trace_perm l p : snd (trace true l p) = snd (trace false l p).
Proof. apply trace_perm_inv. apply Forall_forall. intros o _. apply getDD_perm_inv. Qed.

(** ** one task manager *)
Section Task.
Context {ST : Type}.
Variables (act : M -> ST -> ST) (inv : bool).
(** what is left to do, applied to the state *)
Definition value (t : tm) (s : ST) : perm * ST := (snd (trace inv (rest t) (tperm t)), acts act (fst (trace inv (rest t) (tperm t))) s).
(** [t'] is [t] after some more operations [l] *)
Definition ahead (t t' : tm) : Prop := exists l, rest t = l ++ rest t' /\ tperm t' = snd (trace inv l (tperm t)).

Lemma ahead_refl t : ahead t t. Proof. now exists []. Qed.
Lemma ahead_trans t1 t2 t3 : ahead t1 t2 -> ahead t2 t3 -> ahead t1 t3.
Proof.
  intros (l1 & H1 & P1) (l2 & H2 & P2). exists (l1 ++ l2). split; [now rewrite H1, H2, app_assoc|]. rewrite trace_app. cbn [snd]. now rewrite P2, P1.
Qed.
Lemma ahead_len t t' : ahead t t' -> length (rest t') <= length (rest t).
Proof. intros (l & -> & _). rewrite app_length. lia. Qed.

Lemma swaps_value r p s t' s' : apply_swaps Ph Lg G M pheq pk gswapt ST act inv r p s = (t', s') ->
  value (mkTm r p) s = value t' s' /\ ahead (mkTm r p) t' /\
  (finished _ _ _ t' = false -> exists o r', rest t' = o :: r' /\ is_swap o = false).
Proof.
  revert p s. induction r as [|o r IH]; intros p s H; cbn [apply_swaps] in H.
  - injection H as <- <-. split; [reflexivity|]. split; [apply ahead_refl|discriminate].
  - destruct (is_swap o) eqn:ES.
    + destruct (getDD inv o p) as [m p'] eqn:E. destruct (IH _ _ H) as (H1 & H2 & H3). split; [|split; [|exact H3]].
      * rewrite <- H1. unfold value. cbn [t_rest t_perm DDSpec.trace]. rewrite E. destruct (trace inv r p'). reflexivity.
      * eapply ahead_trans; [|exact H2]. exists [o]. split; [reflexivity|]. cbn. now rewrite E.
    + injection H as <- <-. split; [reflexivity|]. split; [apply ahead_refl|]. intros _. cbn. eauto.
Qed.
Lemma swapops_value t s t' s' : applySwapOperations Ph Lg G M pheq pk gswapt ST act inv t s = (t', s') ->
  value t s = value t' s' /\ ahead t t' /\ (finished _ _ _ t' = false -> exists o r', rest t' = o :: r' /\ is_swap o = false).
Proof. destruct t as [r p]. apply swaps_value. Qed.

Lemma gate_value t s t' s' : applyGate Ph Lg G M pheq pk ST act inv t s = (t', s') ->
  value t s = value t' s' /\ ahead t t' /\ (finished _ _ _ t = false -> length (rest t') < length (rest t)).
Proof.
  destruct t as [[|o r] p]; cbn.
  - intros H. injection H as <- <-. split; [reflexivity|]. split; [apply ahead_refl|discriminate].
  - destruct (getDD inv o p) as [m p'] eqn:E. intros H. injection H as <- <-. split; [|split].
    + unfold value. cbn [t_rest t_perm DDSpec.trace]. rewrite E. destruct (trace inv r p'). reflexivity.
    + exists [o]. split; [reflexivity|]. cbn. now rewrite E.
    + intros _. cbn. lia.
Qed.

Lemma advance_value fuel n t s t' s' : advance_fuel Ph Lg G M pheq pk gswapt ST act inv fuel n t s = (t', s') ->
  value t s = value t' s' /\ ahead t t' /\
  (n <> 0%N -> fuel <> 0 -> finished _ _ _ t = false -> length (rest t') < length (rest t)).
Proof.
  revert n t s. induction fuel as [|f IH]; intros n t s H; cbn [advance_fuel] in H.
  - injection H as <- <-. split; [reflexivity|]. split; [apply ahead_refl|]. intros _ H. contradiction.
  - destruct ((n =? 0)%N || finished _ _ _ t) eqn:E.
    + injection H as <- <-. split; [reflexivity|]. split; [apply ahead_refl|]. intros HN _ HF.
      rewrite HF, orb_false_r in E. now apply N.eqb_eq in E.
    + destruct (applyGate _ _ _ _ _ _ _ _ _ t s) as [t1 s1] eqn:E1.
      destruct (applySwapOperations _ _ _ _ _ _ _ _ _ _ t1 s1) as [t2 s2] eqn:E2.
      destruct (gate_value _ _ _ _ E1) as (V1 & A1 & L1). destruct (swapops_value _ _ _ _ E2) as (V2 & A2 & _).
      destruct (IH _ _ _ H) as (V3 & A3 & _). split; [congruence|]. split; [eauto using ahead_trans|].
      intros _ _ HF. specialize (L1 HF). apply ahead_len in A2, A3. lia.
Qed.

Lemma finish_value fuel t s t' s' : finish_fuel Ph Lg G M pheq pk gswapt ST act inv fuel t s = (t', s') ->
  length (rest t) <= fuel -> rest t' = [] /\ value t s = value t' s' /\ ahead t t'.
Proof.
  revert t s. induction fuel as [|f IH]; intros t s H HL; cbn [finish_fuel] in H.
  - injection H as <- <-. split; [destruct (rest t); [reflexivity|cbn in HL; lia]|]. split; [reflexivity|apply ahead_refl].
  - destruct (finished _ _ _ t) eqn:EF.
    + injection H as <- <-. split; [unfold finished in EF; destruct (rest t); [reflexivity|discriminate]|]. split; [reflexivity|apply ahead_refl].
    + unfold advance in H. destruct (advance_fuel _ _ _ _ _ _ _ _ _ _ (length (rest t)) 1 t s) as [t1 s1] eqn:E.
      destruct (advance_value _ _ _ _ _ _ E) as (V1 & A1 & L1).
      assert (HLT : length (rest t1) < length (rest t)).
      { apply L1; [discriminate| |exact EF]. unfold finished in EF. destruct (rest t); [discriminate|cbn; lia]. }
      destruct (IH _ _ H ltac:(lia)) as (R & V2 & A2). split; [exact R|]. split; [congruence|]. eapply ahead_trans; eassumption.
Qed.
Lemma tm_finish_value t s t' s' : tm_finish Ph Lg G M pheq pk gswapt ST act inv t s = (t', s') ->
  rest t' = [] /\ value t s = value t' s' /\ ahead t t'.
Proof. intros H. apply (finish_value _ _ _ _ _ H). lia. Qed.
End Task.
End P.
