From Coq Require Import String List Bool Arith ZArith NArith QArith Qround Qabs Lia Lqa Sorting.Permutation Sorting.Sorted.
From Verif Require Import PyProfile PyProfileSpec.
Import ListNotations.

Lemma pkey_eqb_eq a b : pkey_eqb a b = true <-> a = b.
Proof.
  destruct a as [g c], b as [g' c']. unfold pkey_eqb. cbn. rewrite andb_true_iff, String.eqb_eq, Nat.eqb_eq. split; [intros [-> ->]|intros E; injection E]; auto.
Qed.
Lemma pkey_eqb_refl k : pkey_eqb k k = true.
Proof. now apply pkey_eqb_eq. Qed.
Lemma pkey_dec (a b : pkey) : {a = b} + {a <> b}.
Proof. destruct (pkey_eqb a b) eqn:E; [left; now apply pkey_eqb_eq|right; intros X; apply pkey_eqb_eq in X; congruence]. Qed.
Lemma dget_dset d k v k' : dget (dset d k v) k' = if pkey_eqb k k' then Some v else dget d k'.
Proof.
  induction d as [|[k0 w] d IH]; cbn [dset dget]; auto. destruct (pkey_eqb k0 k) eqn:E; cbn [dget].
  - apply pkey_eqb_eq in E as ->. now destruct (pkey_eqb k k').
  - rewrite IH. destruct (pkey_eqb k0 k') eqn:E'; auto. destruct (pkey_eqb k k') eqn:E2; auto. apply pkey_eqb_eq in E', E2. subst. rewrite pkey_eqb_refl in E. discriminate.
Qed.
Lemma dget_setdefault d k v k' : dget (setdefault d k v) k' = match dget d k' with Some w => Some w | None => if pkey_eqb k k' then Some v else None end.
Proof.
  unfold setdefault. destruct (dget d k) as [w|] eqn:E.
  - destruct (dget d k') eqn:E'; auto. destruct (pkey_eqb k k') eqn:X; auto. apply pkey_eqb_eq in X. congruence.
  - rewrite dget_dset. destruct (pkey_eqb k k') eqn:X; [apply pkey_eqb_eq in X as ->; now rewrite E|]. now destruct (dget d k').
Qed.
(* the value of a key in a dict literal given as a list of assignments: the last one *)
Definition dlast (d : dict) (k : pkey) : option Z := dget (rev d) k.
Lemma dget_app d d' k : dget (d ++ d') k = match dget d k with Some v => Some v | None => dget d' k end.
Proof. induction d as [|[k0 v] d IH]; cbn; auto. destruct (pkey_eqb k0 k); auto. Qed.
Lemma dget_dupdate d2 : forall d k, dget (dupdate d d2) k = match dlast d2 k with Some v => Some v | None => dget d k end.
Proof.
  unfold dupdate, dlast. induction d2 as [|[k0 v] d2 IH]; intros d k; cbn [fold_left rev]; auto. rewrite IH, dget_app. destruct (dget (rev d2) k); auto.
  cbn [fst snd]. rewrite dget_dset. cbn [dget]. now destruct (pkey_eqb k0 k).
Qed.
Lemma dget_in d k v : dget d k = Some v -> In (k, v) d.
Proof. induction d as [|[k0 w] d IH]; cbn; [discriminate|]. destruct (pkey_eqb k0 k) eqn:E; [intros X; injection X as ->; apply pkey_eqb_eq in E; subst; auto|auto]. Qed.
Lemma dget_none d k : dget d k = None <-> ~ In k (map fst d).
Proof.
  induction d as [|[k0 w] d IH]; cbn; [tauto|]. destruct (pkey_eqb k0 k) eqn:E.
  - apply pkey_eqb_eq in E. split; [discriminate|]. intros X. exfalso. auto.
  - rewrite IH. split; [intros X [Y|Y]; auto; subst; rewrite pkey_eqb_refl in E; discriminate|auto].
Qed.
Lemma dlast_nodup d k : keys_nodup d -> dlast d k = dget d k.
Proof.
  unfold dlast, keys_nodup. induction d as [|[k0 v] d IH]; intros N; auto. cbn [rev]. rewrite dget_app. cbn [map fst] in N. apply NoDup_cons_iff in N as [N N'].
  rewrite IH by auto. cbn [dget]. destruct (dget d k) as [w|] eqn:E; [|auto]. destruct (pkey_eqb k0 k) eqn:X; auto. apply pkey_eqb_eq in X. subst. exfalso. apply N.
  apply dget_in in E. now apply (in_map fst) in E.
Qed.

(** ** special cases *)
Lemma defaults_spec gates nc v : forall d k, dget (fold_left (fun acc g => setdefault acc (g, nc) v) gates d) k =
  match dget d k with Some w => Some w | None => if existsb (String.eqb (fst k)) gates && Nat.eqb (snd k) nc then Some v else None end.
Proof.
  induction gates as [|g gates IH]; intros d k; cbn [fold_left existsb andb]; [now destruct (dget d k)|].
  rewrite IH, dget_setdefault. destruct (dget d k); auto. unfold pkey_eqb. cbn [fst snd]. rewrite (String.eqb_sym g), (Nat.eqb_sym nc).
  destruct (String.eqb (fst k) g), (Nat.eqb (snd k) nc), (existsb (String.eqb (fst k)) gates); reflexivity.
Qed.
Lemma special_gen gates under : forall l d k, dget (fold_left (fun acc e => if String.eqb (fst (fst e)) under then fold_left (fun acc g => setdefault acc (g, snd (fst e)) (snd e)) gates acc else acc) l d) k =
  match dget d k with Some w => Some w | None => if existsb (String.eqb (fst k)) gates then dget l (under, snd k) else None end.
Proof.
  induction l as [|[[g nc] v] l IH]; intros d k; cbn [fold_left]; [destruct (dget d k); auto; now destruct (existsb _ _)|].
  rewrite IH. cbn [fst snd]. destruct (String.eqb_spec g under) as [->|N].
  - rewrite defaults_spec. destruct (dget d k); auto. cbn [dget]. unfold pkey_eqb. cbn [fst snd]. rewrite String.eqb_refl, (Nat.eqb_sym nc). cbn [andb].
    destruct (existsb _ gates); auto. cbn [andb]. now destruct (Nat.eqb (snd k) nc).
  - destruct (dget d k); auto. cbn [dget]. unfold pkey_eqb. cbn [fst snd]. destruct (String.eqb_spec g under); [congruence|]. reflexivity.
Qed.
Lemma special_spec gates under d k : dget (add_special_case_data gates under d) k =
  match dget d k with Some w => Some w | None => if existsb (String.eqb (fst k)) gates then dget d (under, snd k) else None end.
Proof. apply special_gen. Qed.

(** ** continuation *)
Lemma extend_spec gate mc cut c : forall k i s d d', extend gate mc cut c k i s d = Some d' ->
  (exists m, (m <= k)%nat /\
    (forall j, (j < m)%nat -> exists v, dget d' (gate, (mc + i + j + 1)%nat) = Some v /\ inject_Z v < cut) /\
    (forall key, (forall j, (j < m)%nat -> key <> (gate, (mc + i + j + 1)%nat)) -> dget d' key = dget d key)).
Proof.
  induction k as [|k IH]; intros i s d d' E; cbn [extend] in E.
  - injection E as <-. exists 0%nat. split; [lia|]. split; [intros j J; lia|auto].
  - destruct (next_term c s) as [t|]; [|discriminate]. destruct (Qle_bool cut (inject_Z t)) eqn:C.
    + injection E as <-. exists 0%nat. split; [lia|]. split; [intros j J; lia|auto].
    + apply IH in E as (m & Lm & H1 & H2). exists (S m). split; [lia|].
      assert (Lt : inject_Z t < cut). { destruct (Qlt_le_dec (inject_Z t) cut) as [|X]; auto. apply Qle_bool_iff in X. congruence. }
      split.
      * intros [|j] J.
        -- exists t. split; auto. rewrite H2.
           ++ rewrite Nat.add_0_r, dget_dset, pkey_eqb_refl. reflexivity.
           ++ intros j' _ X. injection X as X. lia.
        -- destruct (H1 j ltac:(lia)) as (v & V & L). exists v. split; auto. rewrite <- V. do 2 f_equal. lia.
      * intros key N. rewrite H2.
        -- rewrite dget_dset. destruct (pkey_eqb (gate, (mc + i + 1)%nat) key) eqn:X; auto. apply pkey_eqb_eq in X. exfalso. apply (N 0%nat); [lia|]. rewrite <- X. f_equal. lia.
        -- intros j J X. apply (N (S j)); [lia|]. rewrite X. f_equal. lia.
Qed.
Lemma lastn_app l x y : lastn 2 (l ++ [x; y]) = [x; y].
Proof. unfold lastn. rewrite app_length. cbn [length]. replace (length l + 2 - 2)%nat with (length l) by lia. rewrite skipn_app, skipn_all, Nat.sub_diag. reflexivity. Qed.
Lemma round_int z q : q == inject_Z z -> round_even q = z.
Proof.
  intros E. unfold round_even. assert (F : Qfloor q = z) by (rewrite (Qfloor_comp _ _ E); apply Qfloor_Z). rewrite F.
  assert (C : q - inject_Z z == 0) by (rewrite E; ring). rewrite (Qcompare_comp _ _ C _ _ (Qeq_refl (1 # 2))). reflexivity.
Qed.
Lemma next_linear l a b : next_term [-1; 2] (l ++ [a; b]) = Some (2 * b - a)%Z.
Proof.
  unfold next_term. cbn [length]. rewrite lastn_app. cbn [length Nat.eqb]. f_equal. apply round_int. cbn [sumprod].
  unfold Z.sub. rewrite inject_Z_plus, inject_Z_mult, inject_Z_opp. change (inject_Z 2) with (2 # 1). ring.
Qed.
Lemma extend_linear gate mc cut : forall k i l a b d, exists m d', extend gate mc cut [-1; 2] k i (l ++ [a; b]) d = Some d' /\ (m <= k)%nat /\
    (forall j, (j < m)%nat -> dget d' (gate, (mc + i + j + 1)%nat) = Some (b + Z.of_nat (j + 1) * (b - a))%Z /\ inject_Z (b + Z.of_nat (j + 1) * (b - a)) < cut) /\
    ((m < k)%nat -> cut <= inject_Z (b + Z.of_nat (m + 1) * (b - a))) /\
    (forall key, (forall j, (j < m)%nat -> key <> (gate, (mc + i + j + 1)%nat)) -> dget d' key = dget d key).
Proof.
  induction k as [|k IH]; intros i l a b d.
  - exists 0%nat, d. cbn [extend]. split; auto. split; [lia|]. split; [intros j J; lia|]. split; [lia|auto].
  - cbn [extend]. rewrite next_linear. destruct (Qle_bool cut (inject_Z (2 * b - a))) eqn:C.
    + exists 0%nat, d. split; auto. split; [lia|]. split; [intros j J; lia|]. split; [|auto]. intros _. apply Qle_bool_iff in C. replace (b + Z.of_nat (0 + 1) * (b - a))%Z with (2 * b - a)%Z by (cbn [Nat.add Z.of_nat Pos.of_succ_nat]; lia). exact C.
    + assert (Lt : inject_Z (2 * b - a) < cut). { destruct (Qlt_le_dec (inject_Z (2 * b - a)) cut) as [|X]; auto. apply Qle_bool_iff in X. congruence. }
      replace ((l ++ [a; b]) ++ [(2 * b - a)%Z])%list with ((l ++ [a]) ++ [b; (2 * b - a)%Z])%list by (rewrite <- !app_assoc; reflexivity).
      destruct (IH (S i) (l ++ [a])%list b (2 * b - a)%Z (dset d (gate, (mc + i + 1)%nat) (2 * b - a)%Z)) as (m & d' & E & Lm & H1 & H2 & H3).
      assert (Ev : forall j, (2 * b - a + Z.of_nat (j + 1) * (2 * b - a - b) = b + Z.of_nat (S j + 1) * (b - a))%Z).
      { intros j. replace (Z.of_nat (S j + 1)) with (Z.of_nat (j + 1) + 1)%Z by lia. ring. }
      exists (S m), d'. split; auto. split; [lia|]. split; [|split].
      * intros [|j] J.
        -- replace (b + Z.of_nat (0 + 1) * (b - a))%Z with (2 * b - a)%Z by (cbn [Nat.add Z.of_nat Pos.of_succ_nat]; lia). split; auto. rewrite H3.
           ++ rewrite Nat.add_0_r, dget_dset, pkey_eqb_refl. reflexivity.
           ++ intros j' _ X. injection X as X. lia.
        -- rewrite <- Ev. destruct (H1 j ltac:(lia)) as (V & L). split; auto. rewrite <- V. do 2 f_equal. lia.
      * intros X. rewrite <- Ev. apply H2. lia.
      * intros key N. rewrite H3.
        -- rewrite dget_dset. destruct (pkey_eqb (gate, (mc + i + 1)%nat) key) eqn:X; auto. apply pkey_eqb_eq in X. exfalso. apply (N 0%nat); [lia|]. rewrite <- X. f_equal. lia.
        -- intros j J X. apply (N (S j)); [lia|]. rewrite X. f_equal. lia.
Qed.

(** ** sorted *)
Lemma insert_perm x l : Permutation (insert x l) (x :: l).
Proof. induction l as [|y l IH]; cbn; auto. destruct (Z.leb x y); auto. rewrite IH. constructor. Qed.
Lemma sorted_perm l : Permutation (sorted l) l.
Proof. induction l as [|x l IH]; cbn; auto. rewrite insert_perm. now constructor. Qed.
Lemma insert_sorted x l : StronglySorted Z.le l -> StronglySorted Z.le (insert x l).
Proof.
  induction l as [|y l IH]; intros H; cbn; [repeat constructor|]. apply StronglySorted_inv in H as [H F]. destruct (Z.leb_spec x y) as [L|L].
  - constructor; [now constructor|]. constructor; auto. eapply Forall_impl; [|exact F]. intros z Z. cbn in Z. lia.
  - constructor; auto. assert (P := insert_perm x l). apply Forall_forall. intros z I. apply (Permutation_in _ P) in I as [<-|I]; [lia|]. rewrite Forall_forall in F. auto.
Qed.
Lemma sorted_sorted l : StronglySorted Z.le (sorted l).
Proof. induction l as [|x l IH]; cbn; [constructor|]. now apply insert_sorted. Qed.

(** ** recurrences *)
Lemma check_recurrence_spec solve s order c :
  (forall m f c, solve m f = Some c -> length m = length f -> Forall2 (fun row v => sumprod c row == inject_Z v) m f) ->
  check_recurrence solve s order = Some c -> forall i, (order <= i < length s)%nat ->
  Qabs (sumprod c (slice (i - order) order s) - inject_Z (nth i s 0%Z)) <= 1 # 100.
Proof.
  intros HS H i I. unfold check_recurrence in H. destruct (Nat.ltb_spec (length s) (2 * order + 1)) as [|L]; [discriminate|].
  destruct (solve _ _) as [c'|] eqn:E; [|discriminate]. destruct (forallb _ _) eqn:F; [|discriminate]. injection H as ->.
  destruct (Nat.lt_ge_cases i (2 * order)) as [G|G].
  - apply HS in E; [|now rewrite !map_length]. 
    assert (X : forall a n j, (a <= j < a + n)%nat -> Forall2 (fun row v => sumprod c row == inject_Z v) (map (fun i => slice i order s) (seq a n)) (map (fun i => nth (i + order) s 0%Z) (seq a n)) -> sumprod c (slice j order s) == inject_Z (nth (j + order) s 0%Z)).
    { intros a n. revert a. induction n as [|n IH]; intros a j J F2; [lia|]. cbn [seq map] in F2. inversion F2; subst. destruct (Nat.eq_dec j a) as [->|N]; auto. apply (IH (S a)); auto. lia. }
    specialize (X 0%nat order (i - order)%nat ltac:(lia) E). replace (i - order + order)%nat with i in X by lia. rewrite X.
    setoid_replace (inject_Z (nth i s 0%Z) - inject_Z (nth i s 0%Z)) with 0 by ring. vm_compute. discriminate.
  - rewrite forallb_forall in F. apply Qle_bool_iff. apply F. apply in_seq. lia.
Qed.

(** ** the whole generation *)
Lemma generate_main solve general mcphase moded d : keys_nodup mcphase -> keys_nodup moded -> generate_profile solve general mcphase moded = Some d ->
  (forall g nc, (nc <= 11)%nat -> 
     let measured := match dget moded (g, nc) with Some v => Some v | None => match dget mcphase (g, nc) with Some v => Some v | None => dget general (g, nc) end end in
     measured <> None -> dget d (g, nc) = measured) /\
  (forall g nc v, In g special_gates -> dget d ("p"%string, nc) = Some v -> dget d (g, nc) <> None).
Proof.
  intros N1 N2. unfold generate_profile, find_continuation. destruct (extend _ _ _ _ _ _ _ (dupdate general mcphase)) as [d1|] eqn:E1; [|discriminate].
  destruct (extend _ _ _ _ _ _ _ (dupdate d1 moded)) as [d2|] eqn:E2; [|discriminate]. intros E. injection E as <-.
  apply extend_spec in E1 as (m1 & _ & _ & H1). apply extend_spec in E2 as (m2 & _ & _ & H2). split.
  - intros g nc L. set (measured := match dget moded (g, nc) with Some v => Some v | None => _ end). intros NM. rewrite special_spec.
    assert (X : dget d2 (g, nc) = measured).
    { rewrite H2 by (intros j _ X; injection X as _ X; lia). rewrite dget_dupdate, dlast_nodup by auto. rewrite H1 by (intros j _ X; injection X as _ X; lia).
      rewrite dget_dupdate, dlast_nodup by auto. reflexivity. }
    rewrite X. destruct measured; [auto|congruence].
  - intros g nc v I. rewrite !special_spec. cbn [fst snd].
    assert (B : existsb (String.eqb g) special_gates = true) by (apply existsb_exists; exists g; split; auto; apply String.eqb_refl).
    rewrite B. assert (Bp : existsb (String.eqb "p") special_gates = false) by reflexivity. rewrite Bp. destruct (dget d2 ("p"%string, nc)) as [w|]; [|discriminate].
    intros _. destruct (dget d2 (g, nc)); discriminate.
Qed.
Lemma dget_in_rev d k v : In (k, v) d -> dget d k <> None.
Proof. intros I X. apply dget_none in X. apply X. now apply (in_map fst) in I. Qed.
Lemma generate_only solve general mcphase moded d : keys_nodup mcphase -> keys_nodup moded -> generate_profile solve general mcphase moded = Some d ->
  forall g nc v, dget d (g, nc) = Some v -> dget general (g, nc) = None -> dget mcphase (g, nc) = None -> dget moded (g, nc) = None ->
  ((g = "p"%string \/ g = "x"%string) /\ (11 < nc < 128)%nat /\ inject_Z v < 1000000) \/ (In g special_gates /\ dget d ("p"%string, nc) = Some v).
Proof.
  intros N1 N2. unfold generate_profile, find_continuation. destruct (extend _ _ _ _ _ _ _ (dupdate general mcphase)) as [d1|] eqn:E1; [|discriminate].
  destruct (extend _ _ _ _ _ _ _ (dupdate d1 moded)) as [d2|] eqn:E2; [|discriminate]. intros E. injection E as <-. intros g nc v V G M O.
  rewrite special_spec in V. cbn [fst snd] in V.
  destruct (dget d2 (g, nc)) as [w|] eqn:D2.
  - injection V as ->. left. apply extend_spec in E1 as (m1 & L1 & P1 & H1). apply extend_spec in E2 as (m2 & L2 & P2 & H2).
    destruct (String.eqb_spec g "x") as [->|Nx].
    + split; [now right|]. destruct (Nat.lt_ge_cases nc 12) as [A|A]; [|destruct (Nat.lt_ge_cases nc (12 + m2)) as [B|B]].
      * rewrite H2 in D2 by (intros j _ X; injection X as X; lia). rewrite dget_dupdate, dlast_nodup, O in D2 by auto.
        rewrite H1 in D2 by (intros j _ X; discriminate X). rewrite dget_dupdate, dlast_nodup, M, G in D2 by auto. discriminate.
      * split; [lia|]. destruct (P2 (nc - 12)%nat ltac:(lia)) as (u & U & C). replace (11 + 0 + (nc - 12) + 1)%nat with nc in U by lia. rewrite D2 in U. now injection U as ->.
      * rewrite H2 in D2 by (intros j J X; injection X as X; lia). rewrite dget_dupdate, dlast_nodup, O in D2 by auto.
        rewrite H1 in D2 by (intros j _ X; discriminate X). rewrite dget_dupdate, dlast_nodup, M, G in D2 by auto. discriminate.
    + rewrite H2 in D2 by (intros j _ X; injection X as X _; congruence). rewrite dget_dupdate, dlast_nodup, O in D2 by auto.
      destruct (String.eqb_spec g "p") as [->|Np]; [|exfalso; rewrite H1 in D2 by (intros j _ X; injection X as X _; congruence); rewrite dget_dupdate, dlast_nodup, M, G in D2 by auto; discriminate].
      split; [now left|]. destruct (Nat.lt_ge_cases nc 12) as [A|A]; [|destruct (Nat.lt_ge_cases nc (12 + m1)) as [B|B]].
      * rewrite H1 in D2 by (intros j _ X; injection X as X; lia). rewrite dget_dupdate, dlast_nodup, M, G in D2 by auto. discriminate.
      * split; [lia|]. destruct (P1 (nc - 12)%nat ltac:(lia)) as (u & U & C). replace (11 + 0 + (nc - 12) + 1)%nat with nc in U by lia. rewrite D2 in U. now injection U as ->.
      * rewrite H1 in D2 by (intros j J X; injection X as X; lia). rewrite dget_dupdate, dlast_nodup, M, G in D2 by auto. discriminate.
  - right. destruct (existsb (String.eqb g) special_gates) eqn:X; [|discriminate]. apply existsb_exists in X as (g' & I & X). apply String.eqb_eq in X as <-. split; auto.
    rewrite special_spec. cbn [fst snd]. now rewrite V.
Qed.

(** ** no exception *)
Lemma length_insert x l : length (insert x l) = S (length l).
Proof. apply (Permutation_length (insert_perm x l)). Qed.
Lemma check_recurrence_order solve s order c : (forall m f c, solve m f = Some c -> length c = length f) -> check_recurrence solve s order = Some c -> length c = order /\ (2 * order + 1 <= length s)%nat.
Proof.
  intros HS H. unfold check_recurrence in H. destruct (Nat.ltb_spec (length s) (2 * order + 1)) as [|L]; [discriminate|].
  destruct (solve _ _) as [c'|] eqn:E; [|discriminate]. destruct (forallb _ _); [|discriminate]. injection H as ->. apply HS in E. rewrite E, map_length, seq_length. auto.
Qed.
Lemma first_recurrence_order solve s os c : (forall m f c, solve m f = Some c -> length c = length f) -> first_recurrence solve s os = Some c -> (2 * length c + 1 <= length s)%nat.
Proof.
  intros HS. induction os as [|o os IH]; cbn [first_recurrence]; [discriminate|]. destruct (check_recurrence solve s o) as [c'|] eqn:E; auto. intros X. injection X as ->.
  apply check_recurrence_order in E; auto. destruct E as [-> E]. exact E.
Qed.
Lemma extend_total gate mc cut c : forall k i s d, (length c <= length s)%nat -> extend gate mc cut c k i s d <> None.
Proof.
  induction k as [|k IH]; intros i s d L; cbn [extend]; [discriminate|]. unfold next_term.
  assert (W : length (lastn (length c) s) = length c) by (unfold lastn; rewrite skipn_length; lia). rewrite W, Nat.eqb_refl.
  destruct (Qle_bool _ _); [discriminate|]. apply IH. rewrite app_length. lia.
Qed.
Lemma find_continuation_total solve d gate cutoff max_order max_control max_qubits cut :
  (forall m f c, solve m f = Some c -> length c = length f) ->
  (cutoff + 2 <= length (filter (fun e => String.eqb (fst (fst e)) gate) d))%nat ->
  find_continuation solve d gate cutoff max_order max_control max_qubits cut <> None.
Proof.
  intros HS L. unfold find_continuation. set (s := sequence d gate cutoff). assert (Ls : (2 <= length s)%nat).
  { subst s. unfold sequence. rewrite skipn_length, (Permutation_length (sorted_perm _)), map_length. lia. }
  apply extend_total. unfold coefficients. destruct (first_recurrence solve s (seq 1 max_order)) as [c|] eqn:E; [|exact Ls].
  apply first_recurrence_order in E; auto. lia.
Qed.

(** ** predicted values *)
Lemma round_even_nearest q : Qabs (inject_Z (round_even q) - q) <= 1 # 2 /\ (Qabs (inject_Z (round_even q) - q) == 1 # 2 -> Z.even (round_even q) = true).
Proof.
  unfold round_even. assert (L := Qfloor_le q). assert (U := Qlt_floor q). rewrite inject_Z_plus in U. set (f := Qfloor q) in *.
  assert (N : Qabs (inject_Z f - q) == q - inject_Z f). { rewrite Qabs_neg by lra. lra. }
  assert (P : Qabs (inject_Z (f + 1) - q) == 1 - (q - inject_Z f)). { rewrite Qabs_pos by (rewrite inject_Z_plus; change (inject_Z 1) with 1; change (inject_Z 1) with 1 in U; lra). rewrite inject_Z_plus. change (inject_Z 1) with 1. lra. }
  destruct (q - inject_Z f ?= 1 # 2) eqn:C.
  - apply Qeq_alt in C. destruct (Z.even f) eqn:E.
    + rewrite N. split; [lra|auto].
    + rewrite P. split; [lra|]. intros _. rewrite Z.even_add, E. reflexivity.
  - apply Qlt_alt in C. rewrite N. split; lra.
  - apply Qgt_alt in C. rewrite P. split; lra.
Qed.
Lemma extend_values gate mc cut c : forall k i s d d', (length c <= length s)%nat -> extend gate mc cut c k i s d = Some d' ->
  exists ts, (length ts <= k)%nat /\
    (forall j, (j < length ts)%nat -> dget d' (gate, (mc + i + j + 1)%nat) = Some (nth j ts 0%Z) /\ nth j ts 0%Z = round_even (sumprod c (lastn (length c) (s ++ firstn j ts)))) /\
    ((length ts < k)%nat -> cut <= inject_Z (round_even (sumprod c (lastn (length c) (s ++ ts))))) /\
    (forall key, (forall j, (j < length ts)%nat -> key <> (gate, (mc + i + j + 1)%nat)) -> dget d' key = dget d key).
Proof.
  induction k as [|k IH]; intros i s d d' Ls E; cbn [extend] in E.
  - injection E as <-. exists []. cbn [length]. repeat split; auto; intros; lia.
  - assert (NT : next_term c s = Some (round_even (sumprod c (lastn (length c) s)))).
    { unfold next_term. assert (W : length (lastn (length c) s) = length c) by (unfold lastn; rewrite skipn_length; lia). now rewrite W, Nat.eqb_refl. }
    rewrite NT in E. set (t := round_even (sumprod c (lastn (length c) s))) in *. destruct (Qle_bool cut (inject_Z t)) eqn:C.
    + injection E as <-. exists []. cbn [length]. split; [lia|]. split; [intros; lia|]. split; [|auto]. intros _. rewrite app_nil_r. now apply Qle_bool_iff in C.
    + apply IH in E as (ts & L & H1 & H2 & H3); [|rewrite app_length; lia]. exists (t :: ts). cbn [length]. split; [lia|]. split; [|split].
      * intros [|j] J.
        -- cbn [nth firstn]. rewrite app_nil_r. split; [|reflexivity]. rewrite H3; [rewrite dget_dset; unfold pkey_eqb; cbn; rewrite String.eqb_refl; rewrite ?Nat.add_0_r, Nat.eqb_refl; reflexivity|].
           intros j' J' X. injection X. lia.
        -- cbn [nth firstn]. destruct (H1 j ltac:(lia)) as [V W]. split.
           ++ rewrite <- V. do 2 f_equal. lia.
           ++ rewrite W. now rewrite <- app_assoc.
      * intros J. specialize (H2 ltac:(lia)). now rewrite <- app_assoc in H2.
      * intros key K. rewrite H3; [|intros j J; replace (mc + S i + j + 1)%nat with (mc + i + S j + 1)%nat by lia; apply K; lia].
        specialize (K 0%nat ltac:(lia)). rewrite dget_dset. destruct (pkey_eqb _ key) eqn:X; auto.
        apply pkey_eqb_eq in X. subst key. exfalso. apply K. f_equal. lia.
Qed.
Lemma first_recurrence_first solve s : forall orders, match first_recurrence solve s orders with
  | Some c => exists pre o post, orders = pre ++ o :: post /\ check_recurrence solve s o = Some c /\ forall o', In o' pre -> check_recurrence solve s o' = None
  | None => forall o, In o orders -> check_recurrence solve s o = None end.
Proof.
  induction orders as [|o r IH]; cbn [first_recurrence]; [intros o []|]. destruct (check_recurrence solve s o) as [c|] eqn:E.
  - exists [], o, r. split; auto. split; auto. intros o' [].
  - destruct (first_recurrence solve s r) as [c|].
    + destruct IH as (pre & o' & post & -> & H1 & H2). exists (o :: pre), o', post. split; auto. split; auto. intros o'' [<-|I]; auto.
    + intros o' [<-|I]; auto.
Qed.
