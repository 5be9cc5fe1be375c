From Coq Require Import List Bool Arith Lia Sorting.Sorted.
From Verif Require Import Perm PermSpec.
Import ListNotations.

Lemma qfind_qset k v k' m : qfind k' (qset k v m) = if k =? k' then Some v else qfind k' m.
Proof.
  induction m as [|[i w] r IH]; cbn [qset]; [reflexivity|].
  destruct (Nat.ltb_spec k i); [reflexivity|]. destruct (Nat.eqb_spec k i) as [->|N].
  - cbn. destruct (Nat.eqb_spec i k'); reflexivity.
  - cbn. rewrite IH. destruct (Nat.eqb_spec i k') as [->|]; [|reflexivity]. destruct (Nat.eqb_spec k k'); [contradiction|reflexivity].
Qed.

Lemma is_map_nil : is_map [].
Proof. constructor. Qed.
Lemma is_map_cons k v r : is_map ((k, v) :: r) <-> is_map r /\ Forall (lt k) (map fst r).
Proof. unfold is_map. cbn. split; [intros H; inversion H; auto|intros [A B]; constructor; auto]. Qed.
Lemma qset_keys k v m : forall x, In x (map fst (qset k v m)) -> x = k \/ In x (map fst m).
Proof.
  induction m as [|[i w] r IH]; cbn [qset]; intros x I.
  - destruct I as [<-|[]]; auto.
  - destruct (k <? i); [destruct I as [<-|I]; auto|]. destruct (Nat.eqb_spec k i) as [->|].
    + destruct I as [<-|I]; [now left|right; now right].
    + destruct I as [<-|I]; [right; now left|]. apply IH in I as [->|I]; [now left|right; now right].
Qed.
Lemma is_map_qset k v m : is_map m -> is_map (qset k v m).
Proof.
  induction m as [|[i w] r IH]; cbn [qset]; intros H.
  - apply is_map_cons. split; [apply is_map_nil|constructor].
  - apply is_map_cons in H as [H F]. destruct (Nat.ltb_spec k i) as [L|L].
    + apply is_map_cons. split; [apply is_map_cons; auto|]. cbn. constructor; auto. eapply Forall_impl; [|exact F]. cbn; intros; lia.
    + destruct (Nat.eqb_spec k i) as [->|N]; apply is_map_cons.
      * auto.
      * split; auto. apply Forall_forall. intros x I. apply qset_keys in I as [->|I]; [lia|]. rewrite Forall_forall in F. auto.
Qed.

Lemma is_map_nodup p : is_map p -> NoDup (map fst p).
Proof.
  intros H. unfold is_map in H. induction H as [|a l S IH F]; constructor; auto. intros I. rewrite Forall_forall in F. specialize (F _ I). lia.
Qed.
Lemma maps_in p k v : is_map p -> (maps p k v <-> In (k, v) p).
Proof.
  unfold maps. induction p as [|[i w] r IH]; intros H; [split; [discriminate|intros []]|].
  apply is_map_cons in H as [H F]. cbn [qfind]. destruct (Nat.eqb_spec i k) as [->|N].
  - split.
    + intros E. injection E as ->. now left.
    + intros [E|I]; [congruence|]. exfalso. rewrite Forall_forall in F. specialize (F k). 
      assert (k < k) by (apply F; apply (in_map fst) in I; exact I). lia.
  - rewrite (IH H). split; [now right|]. intros [E|I]; [congruence|auto].
Qed.
Lemma keys_in p k : is_map p -> (keys p k <-> In k (map fst p)).
Proof.
  intros H. split.
  - intros (v & M). apply maps_in in M; auto. now apply (in_map fst) in M.
  - intros I. apply in_map_iff in I as ([a b] & <- & I). exists b. now apply maps_in.
Qed.
Lemma values_in p v : is_map p -> (values p v <-> In v (map snd p)).
Proof.
  intros H. split.
  - intros (k & M). apply maps_in in M; auto. now apply (in_map snd) in M.
  - intros I. apply in_map_iff in I as ([a b] & <- & I). exists a. now apply maps_in.
Qed.
Lemma inj_nodup p : is_map p -> (injective_map p <-> NoDup (map snd p)).
Proof.
  intros H. split.
  - intros I. assert (forall k k' v, In (k, v) p -> In (k', v) p -> k = k') as I'.
    { intros k k' v A B. apply (I k k' v); apply maps_in; auto. }
    pose proof (is_map_nodup p H) as ND. clear I H. induction p as [|[k v] r IH]; cbn; constructor.
    + intros X. apply in_map_iff in X as ([k' v'] & E & X). cbn in E. subst. inversion ND; subst.
      assert (k = k') by (apply (I' k k' v); [now left|now right]). subst. apply H1. now apply (in_map fst) in X.
    + apply IH; [|now inversion ND]. intros a b c A B. apply (I' a b c); now right.
  - intros ND k k' v A B. apply maps_in in A, B; auto. clear H.
    induction p as [|[a b] r IH]; [destruct A|]. cbn in ND. inversion ND; subst.
    destruct A as [A|A], B as [B|B].
    + congruence.
    + injection A as -> ->. exfalso. apply H1. now apply (in_map snd) in B.
    + injection B as -> ->. exfalso. apply H1. now apply (in_map snd) in A.
    + auto.
Qed.

(** two maps with the same look-ups are equal *)
Lemma map_ext_eq p q : is_map p -> is_map q -> (forall k, qfind k p = qfind k q) -> p = q.
Proof.
  revert q; induction p as [|[k v] r IH]; intros [|[k' v'] r'] Hp Hq E.
  - reflexivity.
  - specialize (E k'). cbn in E. rewrite Nat.eqb_refl in E. discriminate.
  - specialize (E k). cbn in E. rewrite Nat.eqb_refl in E. discriminate.
  - apply is_map_cons in Hp as [Hp Fp]. apply is_map_cons in Hq as [Hq Fq]. rewrite Forall_forall in Fp, Fq.
    assert (NP : forall x, qfind x r <> None -> k < x).
    { intros x N. apply Fp. apply keys_in; auto. destruct (qfind x r) eqn:Q; [|contradiction]. now exists n. }
    assert (NQ : forall x, qfind x r' <> None -> k' < x).
    { intros x N. apply Fq. apply keys_in; auto. destruct (qfind x r') eqn:Q; [|contradiction]. now exists n. }
    assert (KK : k = k').
    { pose proof (E k) as E1. pose proof (E k') as E2. cbn in E1, E2. rewrite Nat.eqb_refl in *.
      destruct (Nat.eqb_spec k' k); [auto|]. destruct (Nat.eqb_spec k k'); [auto|].
      assert (k' < k) by (apply NQ; congruence). assert (k < k') by (apply NP; congruence). lia. }
    subst k'. assert (v = v'). { specialize (E k). cbn in E. rewrite Nat.eqb_refl in E. congruence. } subst v'.
    f_equal. apply IH; auto. intros x. specialize (E x). cbn in E. destruct (Nat.eqb_spec k x) as [->|]; auto.
    destruct (qfind x r) eqn:A; [assert (x < x) by (apply NP; congruence); lia|].
    destruct (qfind x r') eqn:B; [assert (x < x) by (apply NQ; congruence); lia|]. reflexivity.
Qed.

(** assigning entries one after the other *)
Definition assign (l : list (nat * nat)) (acc : qmap) : qmap := fold_left (fun acc e => qset (fst e) (snd e) acc) l acc.
Lemma is_map_assign l acc : is_map acc -> is_map (assign l acc).
Proof. revert acc; induction l as [|e l IH]; intros acc H; cbn; auto. apply IH. now apply is_map_qset. Qed.
Lemma assign_find l acc k v : NoDup (map fst l) ->
  (qfind k (assign l acc) = Some v <-> In (k, v) l \/ (~ In k (map fst l) /\ qfind k acc = Some v)).
Proof.
  revert acc; induction l as [|[a b] l IH]; intros acc ND; cbn.
  - tauto.
  - cbn in ND. inversion ND; subst. rewrite IH; auto. rewrite qfind_qset. destruct (Nat.eqb_spec a k) as [->|N]; split.
    + intros [I|[NI E]].
      * left. now right.
      * injection E as ->. left. now left.
    + intros [[E|I]|[NI E]].
      * injection E as ->. right. auto.
      * exfalso. apply H1. now apply (in_map fst) in I.
      * exfalso. apply NI. now left.
    + intros [I|[NI E]]; [left; now right|]. right. split; auto. intros [X|X]; auto.
    + intros [[E|I]|[NI E]]; [congruence|auto|]. right. split; auto.
Qed.

Lemma invert_assign p : invert p = assign (map (fun e => (snd e, fst e)) p) [].
Proof. unfold invert, assign. generalize (@nil (nat * nat)). induction p as [|e p IH]; intros acc; cbn; auto. Qed.
Lemma invert_is_map p : is_map (invert p).
Proof. rewrite invert_assign. apply is_map_assign, is_map_nil. Qed.
Lemma invert_maps p : is_map p -> injective_map p -> forall v w, maps (invert p) w v <-> maps p v w.
Proof.
  intros H I v w. unfold maps at 1. rewrite invert_assign, assign_find.
  - rewrite maps_in; auto. cbn. rewrite in_map_iff. split.
    + intros [([a b] & E & X)|[_ E]]; [|discriminate]. cbn in E. injection E as <- <-. exact X.
    + intros X. left. exists (v, w). auto.
  - rewrite map_map. cbn. apply inj_nodup; auto.
Qed.
Lemma invert_injective p : is_map p -> injective_map p -> injective_map (invert p).
Proof. intros H I k k' v A B. apply (invert_maps p H I) in A. apply (invert_maps p H I) in B. unfold maps in *. congruence. Qed.
Lemma invert_involutive p : is_map p -> injective_map p -> invert (invert p) = p.
Proof.
  intros H I. apply map_ext_eq; auto using invert_is_map. intros k.
  pose proof (invert_maps (invert p) (invert_is_map p) (invert_injective p H I)) as A. pose proof (invert_maps p H I) as B. unfold maps in *.
  destruct (qfind k (invert (invert p))) as [v|] eqn:E.
  - apply A, B in E. auto.
  - destruct (qfind k p) as [v|] eqn:F; auto. apply B, A in F. congruence.
Qed.

Definition pairs (p1 p2 : qmap) := flat_map (fun e : nat * nat => match qfind (snd e) p2 with Some x => [(fst e, x)] | None => [] end) p1.
Lemma concat_assign p1 p2 : concat p1 p2 = assign (pairs p1 p2) [].
Proof.
  assert (G : forall acc, fold_left (fun acc e => match qfind (snd e) p2 with Some x => qset (fst e) x acc | None => acc end) p1 acc = assign (pairs p1 p2) acc).
  { unfold assign, pairs. induction p1 as [|e p IH]; intros acc; cbn; auto.
    rewrite fold_left_app. rewrite IH. destruct (qfind (snd e) p2); reflexivity. }
  apply G.
Qed.
Lemma concat_is_map p1 p2 : is_map (concat p1 p2).
Proof. rewrite concat_assign. apply is_map_assign, is_map_nil. Qed.
Lemma concat_find p1 p2 k : is_map p1 -> qfind k (concat p1 p2) = match qfind k p1 with Some w => qfind w p2 | None => None end.
Proof.
  intros H. set (l := pairs p1 p2).
  assert (IN : forall a b, In (a, b) l <-> exists w, In (a, w) p1 /\ qfind w p2 = Some b).
  { intros a b. unfold l, pairs. rewrite in_flat_map. split.
    - intros ([x y] & I & J). cbn in J. destruct (qfind y p2) eqn:Q; [|destruct J]. destruct J as [J|[]]. injection J as -> ->. eauto.
    - intros (w & I & Q). exists (a, w). split; auto. cbn. rewrite Q. now left. }
  assert (ND : NoDup (map fst l)).
  { unfold l, pairs. clear IN l. pose proof (is_map_nodup p1 H) as ND. clear H. induction p1 as [|[a b] r IH]; cbn; [constructor|].
    cbn in ND. inversion ND; subst. rewrite map_app. cbn [snd fst]. destruct (qfind b p2); cbn; [|auto]. constructor; auto.
    intros X. apply in_map_iff in X as ([x y] & E & X). cbn in E. subst. apply in_flat_map in X as ([u v] & I & J). cbn in J.
    destruct (qfind v p2); [|destruct J]. destruct J as [J|[]]. injection J as -> _. apply H1. now apply (in_map fst) in I. }
  rewrite concat_assign. fold l. destruct (qfind k (assign l [])) as [v|] eqn:E.
  - apply assign_find in E; auto. destruct E as [I|[_ E]]; [|discriminate]. apply IN in I as (w & I & Q).
    apply maps_in in I; auto. unfold maps in I. rewrite I. auto.
  - destruct (qfind k p1) as [w|] eqn:F; auto. destruct (qfind w p2) as [x|] eqn:G; auto.
    exfalso. assert (qfind k (assign l []) = Some x); [|congruence]. apply assign_find; auto. left. apply IN. exists w. split; auto. now apply maps_in.
Qed.

(** ** complete *)
Lemma nmem_in x l : nmem x l = true <-> In x l.
Proof. unfold nmem. rewrite existsb_exists. split; [intros (y & I & E); apply Nat.eqb_eq in E; now subst|intros I; exists x; split; auto; apply Nat.eqb_refl]. Qed.
Lemma first_free_some n from j : first_free n from = Some j -> j < n /\ ~ In j from /\ forall i, i < j -> In i from.
Proof.
  unfold first_free. intros E. assert (G : forall s, find (fun j => negb (nmem j from)) (seq s (n - s)) = Some j -> s <= n ->
     s <= j < n /\ ~ In j from /\ forall i, s <= i < j -> In i from).
  { clear E. intros s. remember (n - s) as m eqn:M. revert s M. induction m as [|m IH]; intros s M E L; [discriminate|]. cbn in E.
    destruct (nmem s from) eqn:Q; cbn in E.
    - apply IH in E; try lia. destruct E as (A & B & C). repeat split; auto; try lia. intros i Li.
      destruct (Nat.eq_dec i s) as [->|]; [now apply nmem_in|apply C; lia].
    - injection E as ->. repeat split; try lia. rewrite <- nmem_in, Q. discriminate. }
  destruct (G 0) as (A & B & C); [rewrite Nat.sub_0_r; auto|lia|]. repeat split; auto; try lia. intros i Li. apply C. lia.
Qed.
Lemma first_free_none n from : first_free n from = None -> forall j, j < n -> In j from.
Proof.
  unfold first_free. intros E j L. assert (Y : negb (nmem j from) = false) by (apply (find_none _ _ E); apply in_seq; lia).
  apply negb_false_iff in Y. now apply nmem_in.
Qed.

(** invariant of the greedy loop after the targets below [i] were treated *)
Record cinv (n : nat) (p : qmap) (i : nat) (st : qmap * list nat * list nat) : Prop := {
  ci_map : is_map (fst (fst st));
  ci_inj : injective_map (fst (fst st));
  ci_to : forall v, In v (snd (fst st)) <-> values (fst (fst st)) v;
  ci_from : forall k, In k (snd st) <-> keys (fst (fst st)) k;
  ci_bound : forall v, values (fst (fst st)) v -> v < n;
  ci_ext : extends p (fst (fst st));
  ci_new : forall k v, maps (fst (fst st)) k v -> maps p k v \/ k < n;
  ci_done : forall v, v < i -> values (fst (fst st)) v }.

Lemma room n p i : is_map p -> injective_map p -> (forall v, values p v -> v < n) -> i < n -> ~ values p i -> exists j, j < n /\ ~ keys p j.
Proof.
  intros M I B L NV.
  destruct (Exists_dec (fun j => ~ In j (map fst p)) (seq 0 n)) as [E|NE].
  - intros x. destruct (in_dec Nat.eq_dec x (map fst p)); [right|left]; tauto.
  - apply Exists_exists in E as (j & J & NJ). apply in_seq in J. exists j. split; [lia|]. now rewrite keys_in.
  - exfalso. assert (incl (seq 0 n) (map fst p)).
    { intros j J. destruct (in_dec Nat.eq_dec j (map fst p)) as [|NJ]; auto. exfalso. apply NE. apply Exists_exists. eauto. }
    apply NoDup_incl_length in H; [|apply seq_NoDup]. rewrite seq_length, map_length in H.
    assert (length (i :: map snd p) <= length (seq 0 n)).
    { apply NoDup_incl_length.
      - constructor; [now rewrite <- values_in|]. now apply inj_nodup.
      - intros v [<-|V]; apply in_seq; [lia|]. apply values_in in V; auto. apply B in V. lia. }
    cbn in H0. rewrite map_length, seq_length in H0. lia.
Qed.

Lemma cinv_step n p i st : i < n -> cinv n p i st -> cinv n p (S i) (complete_step n st i).
Proof.
  intros L [M I T F B X W D]. destruct st as [[q to] from]. cbn [fst snd] in *. unfold complete_step.
  destruct (nmem i to) eqn:Q.
  - apply nmem_in, T in Q. constructor; cbn [fst snd]; auto. intros v Lv. destruct (Nat.eq_dec v i) as [->|]; auto. apply D. lia.
  - assert (NV : ~ values q i) by (rewrite <- T, <- nmem_in, Q; discriminate).
    destruct (first_free n from) as [j|] eqn:FF.
    2:{ exfalso. destruct (room n q i) as (j & Lj & NK); auto. apply NK, F. now apply (first_free_none n). }
    apply first_free_some in FF as (Lj & NJ & _). assert (NK : ~ keys q j) by (now rewrite <- F).
    assert (MS : forall k v, maps (qset j i q) k v <-> (k = j /\ v = i) \/ maps q k v).
    { intros k v. unfold maps. rewrite qfind_qset. destruct (Nat.eqb_spec j k) as [->|N].
      - split; [intros E; injection E as ->; auto|]. intros [[_ ->]|E]; auto. exfalso. apply NK. now exists v.
      - split; auto. intros [[-> _]|E]; [contradiction|auto]. }
    assert (VS : forall v, values (qset j i q) v <-> v = i \/ values q v).
    { intros v. split.
      - intros (k & A). apply MS in A as [[_ ->]|A]; auto. right. now exists k.
      - intros [->|(k & A)]; [exists j|exists k]; apply MS; auto. }
    constructor; cbn [fst snd].
    + now apply is_map_qset.
    + intros k k' v A A'. apply MS in A as [[-> ->]|A], A' as [[-> E]|A'].
      * reflexivity.
      * exfalso. apply NV. now exists k'.
      * subst v. exfalso. apply NV. now exists k.
      * eapply I; eauto.
    + intros v. rewrite VS, <- T. cbn. intuition congruence.
    + intros k. cbn. rewrite F. split.
      * intros [<-|(v & A)]; [exists i|exists v]; apply MS; auto.
      * intros (v & A). apply MS in A as [[-> _]|A]; auto. right. now exists v.
    + intros v A. apply VS in A as [->|A]; auto.
    + intros k v A. apply MS. right. auto.
    + intros k v A. apply MS in A as [[-> ->]|A]; auto.
    + intros v Lv. apply VS. destruct (Nat.eq_dec v i) as [->|]; auto. right. apply D. lia.
Qed.

Lemma complete_spec p n : partial_perm p n -> exists q, complete p n = Some q /\ is_map q /\ injective_map q /\ extends p q /\
  (forall v, values q v <-> v < n) /\ length q = n /\ (forall k v, maps q k v -> maps p k v \/ k < n).
Proof.
  intros (M & I & B). unfold complete. destruct (Nat.eqb_spec (length p) n) as [E|N].
  - exists p. repeat split; auto.
    + intros k v A; exact A.
    + intros Lv. apply values_in; auto.
      assert (incl (seq 0 n) (map snd p)).
      { apply NoDup_length_incl; [now apply inj_nodup|rewrite seq_length, map_length; lia|].
        intros x X. apply in_seq. apply values_in in X; auto. apply B in X. lia. }
      apply H. apply in_seq. lia.
  - destruct (existsb (fun e => n <=? snd e) p) eqn:X.
    { exfalso. apply existsb_exists in X as ([k v] & J & L). cbn in L. apply Nat.leb_le in L.
      assert (v < n) by (apply B; exists k; now apply maps_in). lia. }
    assert (C0 : cinv n p 0 (p, map snd p, map fst p)).
    { constructor; cbn [fst snd]; auto.
      - intros v. now rewrite values_in.
      - intros k. now rewrite keys_in.
      - intros k v A; exact A.
      - intros v L; lia. }
    assert (G : forall m, m <= n -> cinv n p m (fold_left (complete_step n) (seq 0 m) (p, map snd p, map fst p))).
    { induction m as [|m IH]; intros L; [exact C0|]. rewrite seq_S, fold_left_app. cbn. apply cinv_step; [lia|]. apply IH. lia. }
    specialize (G n (le_n n)). destruct (fold_left _ _ _) as [[q to] from]. destruct G as [M' I' T F B' X' W D]. cbn [fst snd] in *.
    assert (V : forall v, values q v <-> v < n) by (intros v; split; auto).
    exists q. repeat split; auto; try apply V.
    assert (A1 : length (map snd q) <= length (seq 0 n)).
    { apply NoDup_incl_length; [now apply inj_nodup|]. intros v J. apply in_seq. apply values_in in J; auto. apply B' in J. lia. }
    assert (A2 : length (seq 0 n) <= length (map snd q)).
    { apply NoDup_incl_length; [apply seq_NoDup|]. intros v J. apply in_seq in J. apply values_in; auto. apply D. lia. }
    rewrite map_length, seq_length in *. lia.
Qed.

Lemma complete_bijection p n : partial_perm p n -> (forall k, keys p k -> k < n) ->
  exists q, complete p n = Some q /\ bijection_below q n /\ extends p q.
Proof.
  intros H K. destruct (complete_spec p n H) as (q & E & M & I & X & V & L & W). exists q. split; auto. split; auto.
  assert (KB : forall k, keys q k -> k < n). { intros k (v & A). apply W in A as [A|A]; auto. apply K. now exists v. }
  split; auto. split; auto. split; auto. intros k. split; auto. intros Lk. apply keys_in; auto.
  assert (incl (seq 0 n) (map fst q)).
  { apply NoDup_length_incl; [now apply is_map_nodup|rewrite seq_length, map_length; lia|].
    intros x J. apply in_seq. apply keys_in in J; auto. apply KB in J. lia. }
  apply H0. apply in_seq. lia.
Qed.

(** ** invertPermutations *)
Lemma combined_spec out lay n : partial_perm out n -> partial_perm lay n ->
  exists o l r, complete out n = Some o /\ complete lay n = Some l /\ invertPermutations out lay n = Some r /\ is_map r /\
    (forall q w, maps r q w <-> exists i, maps o i q /\ maps l i w) /\
    ((forall q, q < n -> keys r q) <-> forall i, keys o i -> keys l i).
Proof.
  intros PO PL. destruct (complete_spec out n PO) as (o & EO & MO & IO & XO & VO & LO & WO).
  destruct (complete_spec lay n PL) as (l & EL & ML & IL & XL & VL & LL & WL).
  exists o, l, (concat (invert o) l). unfold invertPermutations. rewrite EO, EL.
  assert (R : forall q w, maps (concat (invert o) l) q w <-> exists i, maps o i q /\ maps l i w).
  { intros q w. unfold maps at 1. rewrite concat_find by apply invert_is_map. split.
    - destruct (qfind q (invert o)) as [i|] eqn:Q; [|discriminate]. intros E. exists i. split; auto. now apply invert_maps.
    - intros (i & A & B). apply invert_maps in A; auto. unfold maps in *. rewrite A. exact B. }
  repeat split; auto using concat_is_map.
  - apply R.
  - apply R.
  - intros T i (q & A). destruct (T q) as (w & Hw). { apply VO. now exists i. }
    apply R in Hw as (i' & A' & Bw). assert (i' = i) by (eapply IO; eauto). subst. now exists w.
  - intros T q L. apply VO in L as (i & A). destruct (T i) as (w & Bw); [now exists q|]. exists w. apply R. eauto.
Qed.

Lemma combined_total out lay n : partial_perm out n -> partial_perm lay n -> (forall k, keys lay k <-> k < n) -> (forall k, keys out k -> keys lay k) ->
  exists r, invertPermutations out lay n = Some r /\ bijection_below r n /\
    (forall i q w, maps out i q -> maps lay i w -> maps r q w).
Proof.
  intros PO PL KL KO. destruct (combined_spec out lay n PO PL) as (o & l & r & EO & EL & ER & MR & R & T).
  destruct (complete_bijection out n PO) as (o' & EO' & (MO & IO & KOo & VO) & XO). { intros k K. now apply KL, KO. }
  destruct (complete_bijection lay n PL) as (l' & EL' & (ML & IL & KLl & VL) & XL). { intros k K. now apply KL. }
  rewrite EO in EO'. injection EO' as <-. rewrite EL in EL'. injection EL' as <-.
  exists r. split; auto. split.
  - split; auto. split.
    { intros q q' w A A'. apply R in A as (i & A1 & A2), A' as (i' & A1' & A2'). assert (i = i') by (eapply IL; eauto). subst. unfold maps in *. congruence. }
    split.
    + intros q. split.
      * intros (w & A). apply R in A as (i & A & _). apply VO. now exists i.
      * revert q. apply T. intros i K. now apply KLl, KOo.
    + intros w. split.
      * intros (q & A). apply R in A as (i & _ & A). apply VL. now exists i.
      * intros L. apply VL in L as (i & A). assert (K : keys o i). { apply KOo, KLl. now exists w. }
        destruct K as (q & Q). exists q. apply R. eauto.
  - intros i q w A B. apply R. exists i. auto.
Qed.
