(** Invariant of the two-mutex queue and its preservation. *)
From Coq Require Import List Bool Arith Lia.
From Verif Require Import Queue QueueSpec.
Import ListNotations.

Section P.
Context {V : Type}.
Notation qst := (qst V). Notation pc := (pc V). Notation ev := (ev V). Notation node := (node V).

(** ** the invariant *)
Fixpoint chain (hp : nat -> option node) (h : nat) (ns : list (nat * V)) (tl : nat) : Prop :=
  match ns with
  | [] => h = tl
  | (a, v) :: r => h = a /\ exists b, hp a = Some (mkNode V (Some v) (Some b)) /\ chain hp b r tl
  end.

Definition addrs (ns : list (nat * V)) (tl : nat) : list nat := map fst ns ++ [tl].

Definition in_head (p : pc) : bool :=
  match p with
  | CTail _ _ _ | CRead _ _ _ | CRel _ _ _ _ | CCmp _ _ _ _ | CPop1 _ _ | CPop2 _ _ _ | CUnl _ _ _ => true
  | _ => false end.
Definition in_tail (p : pc) : bool :=
  match p with PData _ _ _ | PNext _ _ _ | PTail _ _ _ | PUnlock _ | CRead _ _ _ | CRel _ _ _ _ => true | _ => false end.
Definition is_sleep (p : pc) : bool := match p with CSleep _ _ => true | _ => false end.
Definition private (p : pc) : option nat :=
  match p with
  | PLock _ a _ | PData _ a _ | PNext _ a _ | PTail _ a _ => Some a
  | CUnl _ _ (inl a) | CData _ a => Some a
  | _ => None end.

Definition pend (es : list ev) (o : opn V) : Prop := exists es0, complete es0 /\ es = es0 ++ [ECall V o].
Definition eff (es : list ev) (o : opn V) (l : lin V) : Prop := exists es0, complete es0 /\ es = es0 ++ [ECall V o; ELin V l].
Definition op_of (k : ckind) : opn V := match k with KWait => OPop V | KUntil => OPopUntil V | KEmpty => OEmpty V end.
Definition wait_op (k : ckind) : Prop := k <> KEmpty.
Definition ph_ok (k : ckind) (f : phase) : Prop :=
  match k with KWait => f = PhLoop | KUntil => True | KEmpty => f = PhFinal end.

Definition after_read (s : qst) (k : ckind) (f : phase) (tl : nat) (es : list ev) : Prop :=
  match k, f with
  | KEmpty, _ => eff es (op_of k) (LTest V (head_is V s tl))
  | KUntil, PhFinal => if head_is V s tl then eff es (op_of k) (LNone V) else pend es (op_of k)
  | _, _ => pend es (op_of k)
  end.

Definition tI (s : qst) (ns : list (nat * V)) (es : list ev) (p : pc) : Prop :=
  match p with
  | Idle _ => complete es
  | PLock _ a v | PData _ a v => pend es (OPush V v)
  | PNext _ a v => pend es (OPush V v) /\ exists x, q_heap V s (q_tail V s) = Some (mkNode V (Some v) x)
  | PTail _ a v => pend es (OPush V v) /\ q_heap V s (q_tail V s) = Some (mkNode V (Some v) (Some a))
  | PUnlock _ | PNotify _ => exists v, eff es (OPush V v) (LPush V v)
  | CLock _ k => pend es (op_of k)
  | CTail _ k f | CRead _ k f => ph_ok k f /\ pend es (op_of k)
  | CRel _ k f tl | CCmp _ k f tl => ph_ok k f /\ after_read s k f tl es /\ (head_is V s tl = false -> ns <> [])
  | CSleep _ k => wait_op k /\ pend es (op_of k)
  | CRelock _ k f => wait_op k /\ ph_ok k f /\ pend es (op_of k)
  | CPop1 _ k => wait_op k /\ pend es (op_of k) /\ ns <> []
  | CPop2 _ k old => wait_op k /\ pend es (op_of k) /\ ns <> [] /\ hd old (map fst ns) = old
  | CUnl _ k (inl a) => wait_op k /\ exists v x, q_heap V s a = Some (mkNode V (Some v) x) /\ eff es (op_of k) (LPop V v)
  | CUnl _ k (inr r) => exists l, eff es (op_of k) l /\ agrees (op_of k) l r
  | CData _ a => exists v x k, wait_op k /\ q_heap V s a = Some (mkNode V (Some v) x) /\ eff es (op_of k) (LPop V v)
  end.

Record Inv (s : qst) (ns : list (nat * V)) (h : nat) (tr : list (nat * ev)) : Prop := mkInv {
  i_chain : chain (q_heap V s) h ns (q_tail V s);
  i_nodup : NoDup (addrs ns (q_tail V s));
  i_fresh : forall a, In a (addrs ns (q_tail V s)) -> a < q_fresh V s;
  i_tail : exists n, q_heap V s (q_tail V s) = Some n;
  i_head : q_head V s = Some h /\ (forall t k a, q_pc V s t <> CPop2 V k a) \/
           q_head V s = None /\ exists t k, q_pc V s t = CPop2 V k h;
  i_hm : forall t, in_head (q_pc V s t) = true <-> q_hm V s = Some t;
  i_tm : forall t, in_tail (q_pc V s t) = true <-> q_tm V s = Some t;
  i_wait : forall t, In t (q_wait V s) <-> is_sleep (q_pc V s t) = true;
  i_priv : forall t a, private (q_pc V s t) = Some a ->
           a < q_fresh V s /\ ~ In a (addrs ns (q_tail V s)) /\ exists n, q_heap V s a = Some n;
  i_dist : forall t t' a, private (q_pc V s t) = Some a -> private (q_pc V s t') = Some a -> t = t';
  i_fifo : fifo [] (effects tr) (map snd ns);
  i_thr : forall t, tI s ns (of_thread t tr) (q_pc V s t) }.

(** ** small facts *)
Lemma upd_eq {A} (f : nat -> A) k x : upd f k x k = x.
Proof. unfold upd. now rewrite Nat.eqb_refl. Qed.
Lemma upd_neq {A} (f : nat -> A) k x i : i <> k -> upd f k x i = f i.
Proof. unfold upd. intros H. destruct (Nat.eqb_spec i k); congruence. Qed.

Lemma effects_app tr tr' : effects (V:=V) (tr ++ tr') = effects tr ++ effects tr'.
Proof. unfold effects. apply flat_map_app. Qed.
Lemma of_thread_app t tr tr' : of_thread (V:=V) t (tr ++ tr') = of_thread t tr ++ of_thread t tr'.
Proof. unfold of_thread. rewrite filter_app, map_app. reflexivity. Qed.
Lemma of_thread_same t (l : list ev) : of_thread t (map (pair t) l) = l.
Proof. unfold of_thread. induction l as [|e l IH]; cbn; [reflexivity|]. rewrite Nat.eqb_refl. cbn. now rewrite IH. Qed.
Lemma of_thread_other t t' (l : list ev) : t' <> t -> of_thread t' (map (pair t) l) = [].
Proof. intros H. unfold of_thread. induction l as [|e l IH]; cbn; [reflexivity|]. destruct (Nat.eqb_spec t t'); [congruence|exact IH]. Qed.

Lemma fifo_snoc_ls q ls q1 l q2 : fifo (V:=V) q ls q1 -> fifo q1 [l] q2 -> fifo q (ls ++ [l]) q2.
Proof. induction 1; cbn; intros HF; try (constructor; auto; fail). exact HF. Qed.

Lemma chain_upd hp h ns tl a n : chain hp h ns tl -> ~ In a (map fst ns) -> chain (upd hp a n) h ns tl.
Proof.
  revert h. induction ns as [|[b v] r IH]; cbn; intros h HC HN; [exact HC|].
  destruct HC as [-> (c & E & HC)]. split; [reflexivity|]. exists c. split.
  - rewrite upd_neq; [exact E|]. intros ->. apply HN. now left.
  - apply IH; auto.
Qed.
Lemma chain_snoc hp h ns tl v a : chain hp h ns tl -> hp tl = Some (mkNode V (Some v) (Some a)) -> chain hp h (ns ++ [(tl, v)]) a.
Proof.
  revert h. induction ns as [|[b w] r IH]; cbn; intros h HC E.
  - subst h. split; [reflexivity|]. exists a. split; [exact E|reflexivity].
  - destruct HC as [-> (c & E' & HC)]. split; [reflexivity|]. exists c. split; [exact E'|]. now apply IH.
Qed.
Lemma chain_head hp h ns tl : chain hp h ns tl -> (h = tl <-> ns = []) \/ In tl (map fst ns).
Proof.
  destruct ns as [|[a v] r]; cbn; intros HC; [left; tauto|].
  destruct HC as [-> (b & E & HC)]. destruct (Nat.eq_dec a tl) as [->|N]; [right; now left|left].
  split; [congruence|discriminate].
Qed.
Lemma chain_empty hp h ns tl : chain hp h ns tl -> NoDup (addrs ns tl) -> (h = tl <-> ns = []).
Proof.
  intros HC HN. destruct (chain_head _ _ _ _ HC) as [E|I]; [exact E|]. exfalso.
  unfold addrs in HN. apply NoDup_remove_2 in HN. rewrite app_nil_r in HN. contradiction.
Qed.
Lemma pend_eff (es : list ev) o l : pend es o -> eff (es ++ [ELin V l]) o l.
Proof. intros (e0 & HC & ->). exists e0. split; [exact HC|]. now rewrite <- app_assoc. Qed.
Lemma eff_complete (es : list ev) o l r : eff es o l -> agrees o l r -> complete (es ++ [ERet V r]).
Proof. intros (e0 & HC & ->) HA. rewrite <- app_assoc. cbn. now apply complete_op with (r := r). Qed.
Lemma complete_pend (es : list ev) o : complete es -> pend (es ++ [ECall V o]) o.
Proof. intros H. exists es. auto. Qed.

Lemma inv_init : Inv (q_init V) [] 0 [].
Proof.
  constructor; cbn; try (intros; easy).
  - constructor; [easy|constructor].
  - intros a [<-|[]]. lia.
  - eauto.
  - left. split; [reflexivity|discriminate].
  - constructor.
  - intros t. constructor.
Qed.
End P.
