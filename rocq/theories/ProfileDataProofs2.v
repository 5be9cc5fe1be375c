(** Lemmas for C86, continued. *)
From Coq Require Import String Ascii List Bool Arith ZArith NArith QArith Lia.
From Verif Require Import PyConfig PyProfile PyProfileSolver PyProfileProofs ProfileGen ProfileGenSpec ProfileGenProofs ProfileGenProofs2 ProfileGenProofs3 Schemes SchemesSpec SchemesProofs2 ProfileData ProfileDataSpec ProfileDataProofs.
Import ListNotations.
Local Open Scope string_scope.

Lemma shipped_names f : In f shipped -> exists l m, (0 <= l <= 3)%Z /\ f = generate_profile_name l m.
Proof.
  intros I. cbn [shipped In] in I.
  repeat (destruct I as [<-|I]; [match goal with |- exists l m, _ /\ ?f = _ =>
      first [exists 0%Z, NoAncilla; split; [lia|reflexivity]|exists 0%Z, Recursion; split; [lia|reflexivity]|exists 0%Z, VChain; split; [lia|reflexivity]
            |exists 1%Z, NoAncilla; split; [lia|reflexivity]|exists 1%Z, Recursion; split; [lia|reflexivity]|exists 1%Z, VChain; split; [lia|reflexivity]
            |exists 2%Z, NoAncilla; split; [lia|reflexivity]|exists 2%Z, Recursion; split; [lia|reflexivity]|exists 2%Z, VChain; split; [lia|reflexivity]
            |exists 3%Z, NoAncilla; split; [lia|reflexivity]|exists 3%Z, Recursion; split; [lia|reflexivity]|exists 3%Z, VChain; split; [lia|reflexivity]] end|]).
  destruct I.
Qed.
Lemma package_files f : package_profile f <> None <-> exists l m, (0 <= l <= 3)%Z /\ f = generate_profile_name l m.
Proof.
  split.
  - intros H. assert (I : In f shipped).
    { unfold package_profile in H. unfold shipped.
      repeat (match type of H with (if String.eqb f ?n then _ else _) <> None => destruct (String.eqb_spec f n) as [E|_]; [subst f; cbn; tauto|] end).
      now destruct H. }
    apply shipped_names. exact I.
  - intros (l & m & L & ->). rewrite (proj1 (package_data l m L)). discriminate.
Qed.

(** *** the costs of one gate, by number of controls *)
Definition is_gate (g : string) (e : pkey * Z) : bool := String.eqb (fst (fst e)) g.
Definition costs (g : string) (d : dict) : list Z := map snd (filter (is_gate g) d).
Fixpoint pkeys_eqb (a b : list pkey) : bool := match a, b with [], [] => true | x :: a', y :: b' => pkey_eqb x y && pkeys_eqb a' b' | _, _ => false end.
Lemma pkeys_eqb_eq a : forall b, pkeys_eqb a b = true -> a = b.
Proof.
  induction a as [|x a IH]; intros [|y b] H; try discriminate; [reflexivity|]. cbn in H. apply andb_true_iff in H as [H1 H2]. apply pkey_eqb_eq in H1. subst. now rewrite (IH _ H2).
Qed.
Definition count (g : string) : nat :=
  if existsb (String.eqb g) ["x"; "p"; "z"; "s"; "sdg"; "t"; "tdg"] then 128
  else if existsb (String.eqb g) ["y"; "h"; "sx"; "rx"; "ry"; "rz"; "u"; "swap"] then 2 else 1.
Definition regular (l : Z) (m : ancilla_mode) : bool :=
  let d := d_of l m in forallb (fun g => pkeys_eqb (map fst (filter (is_gate g) d)) (map (pair g) (seq 0 (count g)))) profile_gates.
Lemma all_regular : forall l m, (0 <= l <= 3)%Z -> regular l m = true.
Proof. apply everywhere. vm_compute. reflexivity. Qed.

Lemma dget_filter g n d : dget d (g, n) = dget (filter (is_gate g) d) (g, n).
Proof.
  induction d as [|[[g' n'] v] d IH]; [reflexivity|]. cbn [filter].
  unfold is_gate at 1. cbn [fst]. destruct (String.eqb_spec g' g) as [->|N].
  - cbn [dget]. destruct (pkey_eqb (g, n') (g, n)); [reflexivity|exact IH].
  - cbn [dget]. unfold pkey_eqb at 1. cbn [fst]. destruct (String.eqb_spec g' g); [contradiction|]. exact IH.
Qed.
Lemma dget_seq g n k : forall a d, map fst d = map (pair g) (seq a k) -> dget d (g, n) = if Nat.ltb n a then None else nth_error (map snd d) (n - a).
Proof.
  induction k as [|k IH]; intros a d H.
  - apply map_eq_nil in H. subst. cbn [dget map]. destruct (Nat.ltb n a); [reflexivity|]. now destruct (n - a)%nat.
  - destruct d as [|[k0 v] d]; [discriminate|]. cbn [seq map] in H. injection H as -> H. cbn [dget]. unfold pkey_eqb. cbn [fst snd]. rewrite String.eqb_refl. cbn [andb].
    rewrite (IH (S a) d H). destruct (Nat.eqb_spec a n) as [->|N].
    + destruct (Nat.ltb_spec n n); [lia|]. now rewrite Nat.sub_diag.
    + destruct (Nat.ltb_spec n (S a)), (Nat.ltb_spec n a); try lia; try reflexivity.
      replace (n - a)%nat with (S (n - S a)) by lia. reflexivity.
Qed.
Lemma dget_costs l m g n : (0 <= l <= 3)%Z -> In g profile_gates -> dget (d_of l m) (g, n) = nth_error (costs g (d_of l m)) n /\ length (costs g (d_of l m)) = count g.
Proof.
  intros L G. pose proof (all_regular l m L) as H. unfold regular in H. rewrite forallb_forall in H. specialize (H g G). apply pkeys_eqb_eq in H.
  split.
  - rewrite dget_filter, (dget_seq g n _ _ _ H). cbn. now rewrite Nat.sub_0_r.
  - unfold costs. rewrite map_length, <- (map_length fst), H, map_length, seq_length. reflexivity.
Qed.

(** *** what the reader makes of it *)
Definition fine (l : Z) (m : ancilla_mode) : bool :=
  forallb (fun e => Z.leb 0 (snd e) && Z.ltb (snd e) 1000000 &&
    (Z.leb 1 (snd e) || (String.eqb (fst (fst e)) "swap" && Nat.eqb (snd (fst e)) 0 && Z.leb 2 l))) (d_of l m).
Lemma all_fine : forall l m, (0 <= l <= 3)%Z -> fine l m = true.
Proof. apply everywhere. vm_compute. reflexivity. Qed.
Lemma dget_fine l m k v : (0 <= l <= 3)%Z -> dget (d_of l m) k = Some v ->
  (0 <= v < 1000000)%Z /\ ((1 <= v)%Z \/ (fst k = "swap" /\ snd k = O /\ (2 <= l)%Z)).
Proof.
  intros L D. apply dget_in in D. pose proof (all_fine l m L) as H. unfold fine in H. rewrite forallb_forall in H. specialize (H _ D). cbn [fst snd] in H.
  rewrite !andb_true_iff, orb_true_iff, !andb_true_iff in H. destruct H as [[H1 H2] H3]. apply Z.leb_le in H1. apply Z.ltb_lt in H2.
  split; [lia|]. destruct H3 as [H3|[[H3 H4] H5]]; [left; now apply Z.leb_le|right]. apply String.eqb_eq in H3. apply Nat.eqb_eq in H4. apply Z.leb_le in H5. auto.
Qed.
Lemma names_one_line l m : (0 <= l <= 3)%Z -> one_line (generate_profile_name l m).
Proof.
  intros L. assert (X : (l = 0 \/ l = 1 \/ l = 2 \/ l = 3)%Z) by lia.
  destruct X as [->|[->|[->| ->]]]; destruct m; intros HI; cbn in HI; repeat (destruct HI as [HI|HI]; [discriminate|]); exact HI.
Qed.
Lemma version_one_line : one_line "1.2.0".
Proof. intros HI; cbn in HI; repeat (destruct HI as [HI|HI]; [discriminate|]); exact HI. Qed.

Lemma package_read tyof l m : knows_names tyof -> (0 <= l <= 3)%Z -> exists t, read_profile tyof (file_of l m) = Some t /\
  (forall g ty n, In g profile_gates -> tyof g = Some ty ->
     lookup t (ty, n) = match dget (d_of l m) (g, N.to_nat n) with Some v => Some (Z.to_N v) | None => None end) /\
  (forall ty n, (forall g, In g profile_gates -> tyof g <> Some ty) -> lookup t (ty, n) = None).
Proof.
  intros [HT HI] L. destruct (package_data l m L) as (P & E & W).
  destruct (profile_read (cost_from (d_of l m)) cramer tyof l m (d_of l m) (generate_profile_name l m) "1.2.0" (names_one_line l m L) version_one_line HT HI E) as (t & R & H1 & H2).
  rewrite W in R. exists t. split; [exact R|]. split; [|exact H2]. intros g ty n G T. pose proof (H1 g ty (N.to_nat n) G T) as X. rewrite N2Nat.id in X. rewrite X.
  destruct (dget (d_of l m) (g, N.to_nat n)) as [v|] eqn:D; [|reflexivity]. destruct (dget_fine _ _ _ _ L D) as [B _]. unfold cost_read.
  assert (V : (0 <= v < 2 ^ 64)%Z) by (split; [lia|eapply Z.lt_trans; [apply B|reflexivity]]).
  rewrite Z.abs_eq by lia. destruct (Z.ltb_spec v (2 ^ 64)); [|lia]. now rewrite Z.mod_small.
Qed.
Lemma table_of tyof l m t : (0 <= l <= 3)%Z -> (shipped_table tyof l m t <-> read_profile tyof (file_of l m) = Some t).
Proof.
  intros L. destruct (package_data l m L) as (P & _). split.
  - intros (c & A & B). rewrite P in A. now injection A as <-.
  - intros H. exists (file_of l m). auto.
Qed.
Lemma readable tyof l m : knows_names tyof -> (0 <= l <= 3)%Z -> exists t, shipped_table tyof l m t.
Proof. intros K L. destruct (package_read tyof l m K L) as (t & R & _). exists t. now apply table_of. Qed.
Lemma shipped_look tyof l m t : knows_names tyof -> (0 <= l <= 3)%Z -> shipped_table tyof l m t ->
  (forall g ty n, In g profile_gates -> tyof g = Some ty ->
     lookup t (ty, n) = match dget (d_of l m) (g, N.to_nat n) with Some v => Some (Z.to_N v) | None => None end) /\
  (forall ty n, (forall g, In g profile_gates -> tyof g <> Some ty) -> lookup t (ty, n) = None).
Proof.
  intros K L H. apply table_of in H; [|exact L]. destruct (package_read tyof l m K L) as (t' & R & X). rewrite H in R. injection R as <-. exact X.
Qed.
Lemma cost_dget tyof l m g n c : knows_names tyof -> (0 <= l <= 3)%Z ->
  (shipped_cost tyof l m g n c <-> In g profile_gates /\ nth_error (costs g (d_of l m)) (N.to_nat n) = Some (Z.of_N c)).
Proof.
  intros K L. split.
  - intros (G & t & ty & T & Y & H). split; [exact G|]. destruct (shipped_look tyof l m t K L T) as [A _]. rewrite (A g ty n G Y) in H.
    rewrite <- (proj1 (dget_costs l m g (N.to_nat n) L G)). destruct (dget (d_of l m) (g, N.to_nat n)) as [v|] eqn:D; [|discriminate]. injection H as <-.
    destruct (dget_fine _ _ _ _ L D). f_equal. lia.
  - intros [G H]. split; [exact G|]. destruct (readable tyof l m K L) as [t T]. destruct (tyof g) as [ty|] eqn:Y; [|now destruct (proj1 K g G)].
    exists t, ty. split; [exact T|]. split; [reflexivity|]. destruct (shipped_look tyof l m t K L T) as [A _]. rewrite (A g ty n G Y).
    rewrite (proj1 (dget_costs l m g (N.to_nat n) L G)), H. now rewrite N2Z.id.
Qed.

(** *** the pairs that have a cost *)
Lemma existsb_in g l : existsb (String.eqb g) l = true <-> In g l.
Proof.
  rewrite existsb_exists. split; [intros (x & I & E); apply String.eqb_eq in E; now subst|intros I; exists g; split; [exact I|apply String.eqb_refl]].
Qed.
Lemma count_has g n : In g profile_gates -> ((n < count g)%nat <-> has_cost g n).
Proof.
  intros G. assert (H : forallb (fun g => Nat.leb 1 (count g) &&
    Bool.eqb (Nat.leb 2 (count g)) (existsb (String.eqb g) ["x"; "y"; "z"; "h"; "sx"; "p"; "rx"; "ry"; "rz"; "u"; "swap"; "s"; "sdg"; "t"; "tdg"]) &&
    (if existsb (String.eqb g) ["x"; "p"; "z"; "s"; "sdg"; "t"; "tdg"] then Nat.eqb (count g) 128 else Nat.leb (count g) 2)) profile_gates = true)
    by (vm_compute; reflexivity).
  rewrite forallb_forall in H. specialize (H g G). rewrite !andb_true_iff in H. destruct H as [[H1 H2] H3]. apply Nat.leb_le in H1. apply Bool.eqb_prop in H2.
  unfold has_cost. destruct n as [|[|n]].
  - split; [intros _; exact G|lia].
  - rewrite <- existsb_in, <- H2, Nat.leb_le. lia.
  - rewrite <- existsb_in. destruct (existsb (String.eqb g) ["x"; "p"; "z"; "s"; "sdg"; "t"; "tdg"]).
    + apply Nat.eqb_eq in H3. rewrite H3. split; [intros; split; [reflexivity|lia]|intros [_ ?]; lia].
    + apply Nat.leb_le in H3. split; [lia|intros [X _]; discriminate].
Qed.
Lemma domain tyof l m g n : knows_names tyof -> (0 <= l <= 3)%Z -> In g profile_gates -> ((exists c, shipped_cost tyof l m g n c) <-> has_cost g (N.to_nat n)).
Proof.
  intros K L G. rewrite <- count_has by exact G. destruct (dget_costs l m g (N.to_nat n) L G) as [D C]. rewrite <- C. rewrite <- nth_error_Some. split.
  - intros [c H]. apply cost_dget in H; [|exact K|exact L]. destruct H as [_ H]. rewrite H. discriminate.
  - intros H. destruct (nth_error (costs g (d_of l m)) (N.to_nat n)) as [v|] eqn:E; [|congruence]. exists (Z.to_N v). apply cost_dget; [exact K|exact L|]. split; [exact G|].
    rewrite E. f_equal. destruct (dget_fine _ _ _ _ L D). lia.
Qed.
Lemma default_one tyof l m t fusion v : knows_names tyof -> (0 <= l <= 3)%Z -> shipped_table tyof l m t ->
  (forall g, In g profile_gates -> tyof g = Some (v_type v) -> ~ has_cost g (N.to_nat (v_nc v))) -> gatecost_scheme t fusion v = (1, 1)%N.
Proof.
  intros K L T H. destruct (shipped_look tyof l m t K L T) as [A B]. unfold gatecost_scheme. destruct t as [|e t]; [reflexivity|].
  destruct (fusion && (v_used v =? 1)%N); [reflexivity|]. f_equal.
  destruct (lookup (e :: t) (v_type v, v_nc v)) as [c|] eqn:E; [|reflexivity]. exfalso.
  assert (X : (exists g, In g profile_gates /\ tyof g = Some (v_type v)) \/ (forall g, In g profile_gates -> tyof g <> Some (v_type v))).
  { clear. induction profile_gates as [|g l [(g' & I & J)|IH]].
    - right. intros g [].
    - left. exists g'. split; [now right|exact J].
    - destruct (tyof g) as [y|] eqn:Y.
      + destruct (optype_eqb y (v_type v)) eqn:Q; [apply optype_eqb_eq in Q; subst y|assert (N : y <> v_type v) by (intros Z0; apply optype_eqb_eq in Z0; congruence)].
        * left. exists g. split; [now left|exact Y].
        * right. intros g' [<-|I]; [congruence|now apply IH].
      + right. intros g' [<-|I]; [congruence|now apply IH]. }
  destruct X as [(g & G & Y)|N]; [|now rewrite (B _ _ N) in E].
  apply (H g G Y). apply (domain tyof l m g (v_nc v) K L G). exists c. split; [exact G|]. exists (e :: t), (v_type v). auto.
Qed.
