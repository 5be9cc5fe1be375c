From Coq Require Import List Arith Bool Lia.
From Verif Require Import Perm ZXFix.
Import ListNotations.

Lemma erase_at_split {A} (l1 l2 : list A) x : erase_at (length l1) (l1 ++ x :: l2) = Some (l1 ++ l2).
Proof. induction l1 as [|y l1 IH]; cbn; [reflexivity|]. now rewrite IH. Qed.
Lemma erase_at_none {A} (l : list A) k : length l <= k -> erase_at k l = None.
Proof. revert k. induction l as [|x l IH]; intros k H; [destruct k; reflexivity|]; cbn. destruct k as [|k]; cbn in *; [lia|]. rewrite IH by lia. reflexivity. Qed.

Lemma filter_all {A} (f : A -> bool) l : (forall x, In x l -> f x = true) -> filter f l = l.
Proof. induction l as [|x l IH]; intros H; cbn; [reflexivity|]. rewrite (H x (or_introl eq_refl)). f_equal. apply IH. intros y I. apply H. now right. Qed.
Lemma filter_agree {A} (f g : A -> bool) l : (forall x, In x l -> f x = g x) -> filter f l = filter g l.
Proof. induction l as [|x l IH]; intros H; cbn; [reflexivity|]. rewrite (H x (or_introl eq_refl)), IH by (intros y I; apply H; now right). reflexivity. Qed.

(** erasing a wire in front of which nothing has been erased *)
Lemma erase_wire (f : nat -> bool) n v : v < n -> (forall x, x <= v -> f x = true) ->
  erase_at v (filter f (seq 0 n)) = Some (filter (fun x => f x && negb (x =? v)) (seq 0 n)).
Proof.
  intros L F. replace n with (v + S (n - S v)) by lia. rewrite seq_app, !filter_app. cbn [plus seq filter].
  rewrite (F v (le_n v)), Nat.eqb_refl. cbn [andb negb].
  rewrite (filter_all f (seq 0 v)) by (intros x I; apply in_seq in I; apply F; lia).
  rewrite (filter_all (fun x => f x && negb (x =? v)) (seq 0 v)).
  - replace v with (length (seq 0 v)) at 1 by apply seq_length. rewrite erase_at_split. f_equal. f_equal.
    apply filter_agree. intros x I. apply in_seq in I. destruct (Nat.eqb_spec x v); [lia|]. now rewrite andb_true_r.
  - intros x I. apply in_seq in I. rewrite F by lia. destruct (Nat.eqb_spec x v); [lia|reflexivity].
Qed.

Lemma fix_ascending p w n : forall k f g, w + k <= n ->
  (forall a b, w <= a -> a < b -> b < w + k -> p a < p b) -> (forall a, w <= a < w + k -> p a < n) ->
  (forall a x, w <= a < w + k -> x <= p a -> g x = true) -> (forall x, x < w + k -> f x = true) ->
  fix_ancillaries p w k (filter f (seq 0 n), filter g (seq 0 n)) =
  Some (filter (fun x => f x && negb (existsb (Nat.eqb x) (seq w k))) (seq 0 n),
        filter (fun x => g x && negb (existsb (fun a => x =? p a) (seq w k))) (seq 0 n)).
Proof.
  induction k as [|k IH]; intros f g L Asc B G F; cbn [fix_ancillaries].
  - cbn [seq existsb negb]. f_equal. f_equal; apply filter_agree; intros; now rewrite andb_true_r.
  - unfold makeAncilla. cbn [fst snd]. rewrite erase_wire; [|lia|intros; apply F; lia].
    rewrite erase_wire; [|apply B; lia|intros x X; apply (G (w + k)); auto; lia].
    rewrite IH; [|lia|intros; apply Asc; lia|intros; apply B; lia| |].
    + replace (S k) with (k + 1) by lia. rewrite seq_app. f_equal. f_equal; apply filter_agree; intros x I; rewrite existsb_app; cbn [seq existsb];
      rewrite orb_false_r, negb_orb, <- !andb_assoc; f_equal; apply andb_comm.
    + intros a x A X. assert (p a < p (w + k)) by (apply Asc; lia). rewrite (G a x) by (auto; lia). destruct (Nat.eqb_spec x (p (w + k))); [lia|reflexivity].
    + intros x X. rewrite F by lia. destruct (Nat.eqb_spec x (w + k)); [lia|reflexivity].
Qed.
Lemma remaining_ascending p w n : w <= n -> (forall a b, w <= a -> a < b -> b < n -> p a < p b) -> (forall a, w <= a < n -> p a < n) ->
  exists outs, remaining_wires p w n = Some (seq 0 w, outs) /\ NoDup outs /\ forall x, In x outs <-> x < n /\ forall a, w <= a < n -> x <> p a.
Proof.
  intros L Asc B. unfold remaining_wires. replace (seq 0 n, seq 0 n) with (filter (fun _ => true) (seq 0 n), filter (fun _ => true) (seq 0 n)).
  2: { f_equal; apply filter_all; auto. }
  rewrite fix_ascending; [|lia|intros; apply Asc; lia|intros; apply B; lia|auto|auto]. eexists. split; [|split].
  - f_equal. f_equal. cbn [andb]. replace n with (w + (n - w)) at 1 by lia. rewrite seq_app, filter_app. cbn [plus].
    rewrite filter_all.
    + rewrite (filter_agree _ (fun _ => false)).
      * assert (X : forall l : list nat, filter (fun _ => false) l = []) by (induction l; auto). now rewrite X, app_nil_r.
      * intros x I. apply negb_false_iff, existsb_exists. exists x. split; [exact I|apply Nat.eqb_refl].
    + intros x I. apply in_seq in I. apply negb_true_iff. destruct (existsb (Nat.eqb x) (seq w (n - w))) eqn:E; [|reflexivity].
      apply existsb_exists in E. destruct E as (y & Iy & E). apply Nat.eqb_eq in E. apply in_seq in Iy. lia.
  - apply NoDup_filter, seq_NoDup.
  - intros x. rewrite filter_In, in_seq. cbn [andb]. split.
    + intros [I N]. split; [lia|]. intros a A E. apply negb_true_iff in N. assert (existsb (fun a => x =? p a) (seq w (n - w)) = true); [|congruence].
      apply existsb_exists. exists a. split; [apply in_seq; lia|]. subst. apply Nat.eqb_refl.
    + intros [I N]. split; [lia|]. apply negb_true_iff. destruct (existsb _ _) eqn:E; [|reflexivity]. apply existsb_exists in E.
      destruct E as (a & A & E). apply Nat.eqb_eq in E. apply in_seq in A. exfalso. apply (N a); [lia|exact E].
Qed.
