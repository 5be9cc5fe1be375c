(** C62: the numerical tolerance.  Model: Tolerance.v. *)
From Coq Require Import List Bool NArith QArith Arith Lia.
From Verif Require Import Tolerance.
Import ListNotations.
Local Open Scope list_scope.

(** the managers an operation concerns *)
Definition concerns (o : op) : nat :=
  match o with NewManager i _ | NewManagerDefault i | SetTolerance i _ | Run i => i end.
(** operations that give a tolerance to manager [i] *)
Definition gives (o : op) (i : nat) (tol : Q) : Prop := o = NewManager i tol \/ o = SetTolerance i tol.

Lemma do_ops_snoc eps l o : do_ops eps (l ++ [o]) = do_op o (do_ops eps l).
Proof. unfold do_ops. now rewrite fold_left_app. Qed.

Lemma alone eps i l : Forall (fun o => concerns o = i) l ->
  let p := do_ops eps l in conf p i = Some (glob p) \/ (conf p i = None /\ glob p = eps).
Proof.
  intros H. induction l as [|o l IH] using rev_ind; [right; split; reflexivity|].
  apply Forall_app in H as [H Ho]. inversion Ho as [|? ? Hi _]; subst. specialize (IH H). rewrite do_ops_snoc.
  set (p := do_ops eps l) in *. cbn zeta in *. clearbody p. clear H Ho.
  destruct o as [i tol|i|i tol|i]; cbn [concerns do_op] in *.
  - left. cbn [conf glob]. unfold put. now rewrite Nat.eqb_refl.
  - left. cbn [conf glob]. unfold put. now rewrite Nat.eqb_refl.
  - destruct (conf p i) eqn:E.
    + left. cbn [conf glob]. unfold put. now rewrite Nat.eqb_refl.
    + rewrite E. exact IH.
  - exact IH.
Qed.

(** In a process that works with one manager at a time (all operations so far concern number [i]), a run uses
    the tolerance of its configuration. *)
Theorem C62_one_manager eps i l : Forall (fun o => concerns o = i) l -> reported (do_ops eps l) i <> None ->
  reported (do_ops eps l) i = Some (used (do_ops eps l)).
Proof. intros H N. destruct (alone eps i l H) as [E|[E _]]; [exact E|contradiction]. Qed.
Print Assumptions C62_one_manager.

(** In general the tolerance used is the last one that any manager was given. *)
Theorem C62_last_one_wins eps l :
  (exists l1 l2 o i tol, l = l1 ++ o :: l2 /\ gives o i tol /\ (o = SetTolerance i tol -> reported (do_ops eps l1) i <> None) /\
     (forall l3 o' l4 j t, l2 = l3 ++ o' :: l4 -> gives o' j t ->
        o' = SetTolerance j t /\ reported (do_ops eps (l1 ++ o :: l3)) j = None) /\
     used (do_ops eps l) = tol) \/
  used (do_ops eps l) = eps.
Proof.
  induction l as [|o l IH] using rev_ind; [right; reflexivity|].
  rewrite do_ops_snoc.
  assert (K : do_op o (do_ops eps l) = do_op o (do_ops eps l)) by reflexivity.
  assert (Keep : used (do_op o (do_ops eps l)) = used (do_ops eps l) ->
     (forall j t, gives o j t -> o = SetTolerance j t /\ reported (do_ops eps l) j = None) ->
     (exists l1 l2 o0 i tol, l ++ [o] = l1 ++ o0 :: l2 /\ gives o0 i tol /\ (o0 = SetTolerance i tol -> reported (do_ops eps l1) i <> None) /\
       (forall l3 o' l4 j t, l2 = l3 ++ o' :: l4 -> gives o' j t ->
          o' = SetTolerance j t /\ reported (do_ops eps (l1 ++ o0 :: l3)) j = None) /\
       used (do_op o (do_ops eps l)) = tol) \/ used (do_op o (do_ops eps l)) = eps).
  { intros Eu Hg. destruct IH as [(l1 & l2 & o0 & i & tol & -> & G & P & A & U)|U]; [left|right; now rewrite Eu].
    exists l1, (l2 ++ [o]), o0, i, tol. split; [now rewrite <- app_assoc|]. split; [exact G|]. split; [exact P|]. split; [|now rewrite Eu].
    intros l3 o' l4 j t E Go. destruct l4 as [|y l4] using rev_ind.
    - apply app_inj_tail in E as [-> ->]. now apply Hg.
    - clear IHl4. rewrite app_comm_cons, app_assoc in E. apply app_inj_tail in E as [E _]. eapply A; eauto. }
  assert (New : forall i tol, gives o i tol -> (o = SetTolerance i tol -> reported (do_ops eps l) i <> None) ->
     used (do_op o (do_ops eps l)) = tol ->
     (exists l1 l2 o0 i tol, l ++ [o] = l1 ++ o0 :: l2 /\ gives o0 i tol /\ (o0 = SetTolerance i tol -> reported (do_ops eps l1) i <> None) /\
       (forall l3 o' l4 j t, l2 = l3 ++ o' :: l4 -> gives o' j t ->
          o' = SetTolerance j t /\ reported (do_ops eps (l1 ++ o0 :: l3)) j = None) /\
       used (do_op o (do_ops eps l)) = tol) \/ used (do_op o (do_ops eps l)) = eps).
  { intros i tol G P U. left. exists l, [], o, i, tol. split; [reflexivity|]. split; [exact G|]. split; [exact P|]. split; [|exact U].
    intros l3 o' l4 j t E. destruct l3; discriminate. }
  destruct o as [i tol|i|i tol|i].
  - apply (New i tol); [left; reflexivity|discriminate|reflexivity].
  - apply Keep; [reflexivity|]. intros j t [G|G]; discriminate.
  - destruct (conf (do_ops eps l) i) eqn:E.
    + apply (New i tol); [right; reflexivity| |].
      * intros _. unfold reported. congruence.
      * cbn [do_op]. rewrite E. reflexivity.
    + apply Keep; [cbn [do_op]; now rewrite E|]. intros j t [G|G]; [discriminate|]. injection G as <- <-. split; [reflexivity|exact E].
  - apply Keep; [reflexivity|]. intros j t [G|G]; discriminate.
Qed.
Print Assumptions C62_last_one_wins.

(** So two managers are not independent: constructing a second one changes the tolerance of the first one's run,
    whose report keeps showing the configured value ... *)
Theorem C62_managers_independent_refuted : forall a b : Q, ~ a == b -> forall eps,
  let p := do_ops eps [NewManager 0 a; NewManager 1 b; Run 0] in
  reported p 0 = Some a /\ used p = b /\ ~ used p == a.
Proof. intros a b H eps. cbn. repeat split. intros E. apply H. now symmetry. Qed.
Print Assumptions C62_managers_independent_refuted.

(** ... and a default configuration inherits the tolerance of an earlier manager instead of the default. *)
Theorem C62_default_refuted : forall a eps : Q,
  reported (do_ops eps [NewManager 0 a; Run 0; NewManagerDefault 1]) 1 = Some a.
Proof. reflexivity. Qed.
Print Assumptions C62_default_refuted.

Example C62_example :
  let l := [NewManager 3 (1 # 100); Run 3; SetTolerance 3 (1 # 1000); Run 3] in
  Forall (fun o => concerns o = 3%nat) l /\ reported (do_ops (1 # 10) l) 3 = Some (1 # 1000) /\ used (do_ops (1 # 10) l) = 1 # 1000.
Proof. cbn. repeat split. repeat constructor. Qed.
