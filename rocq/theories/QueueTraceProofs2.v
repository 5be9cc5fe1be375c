(** The guards of the queue's locations. *)
From Coq Require Import List Bool Arith Lia.
From Verif Require Import Queue QueueSpec QueueProofs QueueProofs2 QueueProofs3 QueueProofs4 Trace TraceProofs QueueTrace QueueTraceProofs.
Import ListNotations.

Section P.
Context {V : Type}.
Notation qst := (qst V). Notation pc := (pc V).
Implicit Types (s : qst).

Definition qown s (m : nat) : option nat := if m =? 0 then q_hm V s else if m =? 1 then q_tm V s else None.
Definition linked s (a : nat) : Prop := q_heap V s a <> None /\ forall t, private (q_pc V s t) <> Some a.
(** the consumer has made sure that the node is not the last one, or has taken it *)
Definition taking (hd : option nat) (p : pc) (a : nat) : Prop :=
  match p with
  | CRel _ _ _ tl | CCmp _ _ _ tl => hd = Some a /\ a <> tl
  | CPop1 _ _ => hd = Some a
  | CPop2 _ _ old => old = a
  | _ => False
  end.
Definition node_guard s (a : nat) (g : gd) : Prop :=
  (g = GMutex tail_mutex /\ linked s a) \/
  (exists t, g = GThread t /\ (private (q_pc V s t) = Some a \/ taking (q_head V s) (q_pc V s t) a)).
Definition qguard s (l : qloc) (g : gd) : Prop :=
  match l with
  | QHead => g = GMutex head_mutex
  | QTail => g = GMutex tail_mutex
  | QData a | QNext a => node_guard s a g
  end.
Definition node_of (l : qloc) : option nat := match l with QData a | QNext a => Some a | _ => None end.
Definition young s B (tr : trace qloc) : Prop := forall p t a l x, B <= p -> nth_error tr p = Some (t, Acc a l) -> node_of l = Some x -> x < q_fresh V s.

Lemma taking_in s ns h tr0 t a : Inv s ns h tr0 -> taking (q_head V s) (q_pc V s t) a -> a = h /\ ns <> [] /\ in_head (q_pc V s t) = true.
Proof.
  intros I HT. assert (T := i_thr _ _ _ _ I t). assert (HH := i_head _ _ _ _ I).
  assert (HS : forall tl, q_head V s = Some a -> a <> tl -> head_is V s tl = false).
  { intros tl E N. unfold head_is. rewrite E. apply Nat.eqb_neq, N. }
  assert (HE : q_head V s = Some a -> a = h) by (intros E; destruct HH as [[E' _]|[E' _]]; congruence).
  destruct (q_pc V s t) eqn:EP; cbn in HT, T; try contradiction.
  - destruct HT as [HT1 HT2]. destruct T as (_ & _ & T). repeat split; auto.
  - destruct HT as [HT1 HT2]. destruct T as (_ & _ & T). repeat split; auto.
  - destruct T as (_ & _ & T). repeat split; auto.
  - subst old. destruct T as (_ & _ & T & E). repeat split; auto. destruct HH as [[_ N]|(_ & u & k' & E')].
    + exfalso. exact (N t k a EP).
    + assert (u = t).
      { apply (hm_unique s ns h tr0 t u I); [rewrite EP|rewrite E']; reflexivity. }
      subst u. rewrite EP in E'. congruence.
Qed.
Lemma head_linked s ns h tr0 : Inv s ns h tr0 -> linked s h.
Proof.
  intros I. split.
  - assert (C := i_chain _ _ _ _ I). destruct ns as [|[a v] r]; cbn in C.
    + subst h. destruct (i_tail _ _ _ _ I) as [n E]. congruence.
    + destruct C as [-> (b & E & _)]. congruence.
  - intros t E. destruct (i_priv _ _ _ _ I t h E) as (_ & N & _). apply N. unfold addrs.
    assert (C := i_chain _ _ _ _ I). destruct ns as [|[a v] r]; cbn in C; [subst h; left; reflexivity|]. destruct C as [-> _]. left. reflexivity.
Qed.
Lemma tail_linked s ns h tr0 : Inv s ns h tr0 -> linked s (q_tail V s).
Proof.
  intros I. split.
  - destruct (i_tail _ _ _ _ I) as [n E]. congruence.
  - intros t E. destruct (i_priv _ _ _ _ I t _ E) as (_ & N & _). apply N. unfold addrs. apply in_or_app. right. left. reflexivity.
Qed.
(** the guards of the last node: the tail mutex *)
Lemma tail_guard s ns h tr0 g : Inv s ns h tr0 -> node_guard s (q_tail V s) g -> g = GMutex tail_mutex.
Proof.
  intros I [[-> _]|(t & -> & [HP|HT])]; [reflexivity| |].
  - exfalso. exact (proj2 (tail_linked s ns h tr0 I) t HP).
  - exfalso. destruct (taking_in s ns h tr0 t _ I HT) as (E & N & _). apply N. apply (chain_empty _ _ _ _ (i_chain _ _ _ _ I) (i_nodup _ _ _ _ I)). congruence.
Qed.

Lemma own_hm s ns h tr0 t : Inv s ns h tr0 -> in_head (q_pc V s t) = true -> qown s head_mutex = Some t.
Proof. intros I H. apply (i_hm _ _ _ _ I), H. Qed.
Lemma own_tm s ns h tr0 t : Inv s ns h tr0 -> in_tail (q_pc V s t) = true -> qown s tail_mutex = Some t.
Proof. intros I H. apply (i_tm _ _ _ _ I), H. Qed.

(** nodes in use were allocated *)
Lemma goto_pc s t p u : q_pc V (goto V s t p) u = if u =? t then p else q_pc V s u.
Proof. reflexivity. Qed.
Lemma goto_guard s t p l g : 
  (forall a, private p = Some a -> private (q_pc V s t) = Some a) ->
  (forall a, private (q_pc V s t) = Some a -> private p = Some a) ->
  (forall a, taking (q_head V s) p a -> taking (q_head V s) (q_pc V s t) a) ->
  qguard (goto V s t p) l g -> qguard s l g.
Proof.
  intros H1 H2 H3.
  assert (N : forall a, node_guard (goto V s t p) a g -> node_guard s a g).
  { intros a [[-> [HL HP]]|(u & -> & H)].
    - left. split; [reflexivity|]. split; [exact HL|]. intros u E. specialize (HP u). rewrite goto_pc in HP. destruct (Nat.eqb_spec u t) as [E0|Hn]; [subst u|auto].
      apply HP, H2, E.
    - right. exists u. split; [reflexivity|]. rewrite goto_pc in H. cbn [q_head goto] in H. destruct (Nat.eqb_spec u t) as [E0|Hn]; [subst u|exact H].
      destruct H as [H|H]; [left; auto|right; auto]. }
  destruct l; cbn; auto.
Qed.
End P.
