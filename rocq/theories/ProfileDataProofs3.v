(** Lemmas for C86, continued: how the costs of the shipped profiles compare. *)
From Coq Require Import String Ascii List Bool Arith ZArith NArith QArith Lia.
From Verif Require Import PyConfig PyProfile PyProfileSolver PyProfileProofs ProfileGen ProfileGenSpec ProfileGenProofs ProfileGenProofs2 ProfileGenProofs3 Schemes SchemesSpec SchemesProofs2 ProfileData ProfileDataSpec ProfileDataProofs ProfileDataProofs2.
Import ListNotations.
Local Open Scope string_scope.

(** *** the same gate with the same number of controls in two files *)
Definition zip (a b : list Z) : list (nat * (Z * Z)) := combine (seq 0 (length a)) (combine a b).
Lemma zip_in a : forall b n x y, nth_error a n = Some x -> nth_error b n = Some y -> In (n, (x, y)) (zip a b).
Proof.
  unfold zip. enough (H : forall k b n x y, nth_error a n = Some x -> nth_error b n = Some y -> In ((k + n)%nat, (x, y)) (combine (seq k (length a)) (combine a b)))
    by (intros b n x y; exact (H O b n x y)).
  induction a as [|v a IH]; intros k b n x y A B; [now destruct n|]. destruct b as [|w b]; [now destruct n|].
  destruct n as [|n]; cbn in A, B.
  - injection A as <-. injection B as <-. left. now rewrite Nat.add_0_r.
  - right. replace (k + S n)%nat with (S k + n)%nat by lia. now apply IH.
Qed.
Definition levels : list Z := [0; 1; 2; 3]%Z.
Definition all_files : list ((Z * ancilla_mode) * list (string * list Z)) :=
  flat_map (fun l => map (fun m => let d := d_of l m in ((l, m), map (fun g => (g, costs g d)) profile_gates)) modes) levels.
Lemma file_in l m : (0 <= l <= 3)%Z -> In ((l, m), map (fun g => (g, costs g (d_of l m))) profile_gates) all_files.
Proof.
  intros L. unfold all_files. apply in_flat_map. exists l. split; [cbn; lia|]. apply in_map_iff. exists m. split; [reflexivity|]. destruct m; cbn; tauto.
Qed.
Definition rel := Z * ancilla_mode -> Z * ancilla_mode -> string -> nat -> Z -> Z -> bool.
Definition gates_ok (p : string -> nat -> Z -> Z -> bool) (a b : list (string * list Z)) : bool :=
  forallb (fun ab => forallb (fun x => p (fst (fst ab)) (fst x) (fst (snd x)) (snd (snd x))) (zip (snd (fst ab)) (snd (snd ab)))) (combine a b).
Definition pairs_ok (sel : Z * ancilla_mode -> Z * ancilla_mode -> bool) (R : rel) (fs : list ((Z * ancilla_mode) * list (string * list Z))) : bool :=
  forallb (fun f => forallb (fun f' => if sel (fst f) (fst f') then gates_ok (R (fst f) (fst f')) (snd f) (snd f') else true) fs) fs.
Lemma pairs_use sel R : pairs_ok sel R all_files = true -> forall tyof l m l' m' g n c c', knows_names tyof -> (0 <= l <= 3)%Z -> (0 <= l' <= 3)%Z ->
  sel (l, m) (l', m') = true -> shipped_cost tyof l m g n c -> shipped_cost tyof l' m' g n c' -> R (l, m) (l', m') g (N.to_nat n) (Z.of_N c) (Z.of_N c') = true.
Proof.
  intros H tyof l m l' m' g n c c' K L L' S C C'. apply cost_dget in C as [G C]; [|exact K|exact L]. apply cost_dget in C' as [_ C']; [|exact K|exact L'].
  unfold pairs_ok in H. rewrite forallb_forall in H. specialize (H _ (file_in l m L)). rewrite forallb_forall in H. specialize (H _ (file_in l' m' L')).
  cbn [fst snd] in H. rewrite S in H. unfold gates_ok in H. rewrite forallb_forall in H.
  assert (I : In ((g, costs g (d_of l m)), (g, costs g (d_of l' m'))) (combine (map (fun g => (g, costs g (d_of l m))) profile_gates) (map (fun g => (g, costs g (d_of l' m'))) profile_gates))).
  { revert G. clear. induction profile_gates as [|a q IH]; intros [].
    - subst. now left.
    - right. now apply IH. }
  specialize (H _ I). cbn [fst snd] in H. rewrite forallb_forall in H. exact (H _ (zip_in _ _ _ _ _ C C')).
Qed.

Definition mode_eqb (a b : ancilla_mode) : bool := match a, b with NoAncilla, NoAncilla | Recursion, Recursion | VChain, VChain => true | _, _ => false end.
Lemma mode_eqb_eq a b : mode_eqb a b = true <-> a = b.
Proof. destruct a, b; cbn; split; congruence. Qed.

(** the higher level *)
Definition cheaper : rel := fun f f' g n c c' => Z.leb c' c || (String.eqb g "swap" && Nat.eqb n 1 && Z.leb (fst f) 1 && Z.leb 2 (fst f')).
Lemma all_cheaper : pairs_ok (fun f f' => mode_eqb (snd f) (snd f') && Z.leb (fst f) (fst f')) cheaper all_files = true.
Proof. vm_compute. reflexivity. Qed.
Lemma higher_level tyof l l' m g n c c' : knows_names tyof -> (0 <= l)%Z -> (l <= l')%Z -> (l' <= 3)%Z -> shipped_cost tyof l m g n c -> shipped_cost tyof l' m g n c' ->
  (c' <= c)%N \/ (g = "swap" /\ n = 1%N /\ (l <= 1)%Z /\ (2 <= l')%Z).
Proof.
  intros K A B D C C'. pose proof (pairs_use _ _ all_cheaper tyof l m l' m g n c c' K ltac:(lia) ltac:(lia)) as H. cbn [fst snd] in H.
  assert (S : mode_eqb m m && Z.leb l l' = true) by (apply andb_true_iff; split; [now apply mode_eqb_eq|now apply Z.leb_le]). specialize (H S C C').
  unfold cheaper in H. cbn [fst snd] in H. apply orb_true_iff in H as [H|H]; [left; apply Z.leb_le in H; lia|right].
  rewrite !andb_true_iff in H. destruct H as [[[H1 H2] H3] H4]. apply String.eqb_eq in H1. apply Nat.eqb_eq in H2. apply Z.leb_le in H3, H4. repeat split; try assumption; lia.
Qed.
Definition same : rel := fun _ _ _ _ c c' => Z.eqb c c'.
Lemma all_same : pairs_ok (fun f f' => mode_eqb (snd f) (snd f') && Z.eqb (fst f) 2 && Z.eqb (fst f') 3) same all_files = true.
Proof. vm_compute. reflexivity. Qed.
Lemma level_2_3 tyof m g n c : knows_names tyof -> (shipped_cost tyof 2 m g n c <-> shipped_cost tyof 3 m g n c).
Proof.
  intros K. assert (X : forall c c', shipped_cost tyof 2 m g n c -> shipped_cost tyof 3 m g n c' -> c = c').
  { intros a b A B. pose proof (pairs_use _ _ all_same tyof 2 m 3 m g n a b K ltac:(lia) ltac:(lia)) as H. cbn [fst snd] in H.
    assert (S : mode_eqb m m && Z.eqb 2 2 && Z.eqb 3 3 = true) by (destruct m; reflexivity). specialize (H S A B). unfold same in H. apply Z.eqb_eq in H. lia. }
  split; intros H; pose proof H as [G _].
  - pose proof (proj1 (domain tyof 2 m g n K ltac:(lia) G) (ex_intro _ c H)) as D. apply (domain tyof 3 m g n K ltac:(lia) G) in D as [c' D]. now rewrite (X _ _ H D).
  - pose proof (proj1 (domain tyof 3 m g n K ltac:(lia) G) (ex_intro _ c H)) as D. apply (domain tyof 2 m g n K ltac:(lia) G) in D as [c' D]. now rewrite <- (X _ _ D H).
Qed.
(** the ancilla modes *)
Definition ancillas : rel := fun f f' g n c c' =>
  Z.leb c' c || (match snd f' with VChain => String.eqb g "x" && Nat.eqb n 3 | _ => false end) .
Definition rank (m : ancilla_mode) : nat := match m with NoAncilla => 0 | Recursion => 1 | VChain => 2 end.
Lemma all_ancillas : pairs_ok (fun f f' => Z.eqb (fst f) (fst f') && Nat.ltb (rank (snd f)) (rank (snd f'))) ancillas all_files = true.
Proof. vm_compute. reflexivity. Qed.
Definition same_but_x : rel := fun f f' g n c c' => Z.eqb c c' || (String.eqb g "x" && Nat.leb 3 n).
Lemma all_same_but_x : pairs_ok (fun f f' => Z.eqb (fst f) (fst f')) same_but_x all_files = true.
Proof. vm_compute. reflexivity. Qed.
Lemma modes_same tyof l m m' g n c c' : knows_names tyof -> (0 <= l <= 3)%Z -> shipped_cost tyof l m g n c -> shipped_cost tyof l m' g n c' ->
  c = c' \/ (g = "x" /\ (3 <= n)%N).
Proof.
  intros K L C C'. pose proof (pairs_use _ _ all_same_but_x tyof l m l m' g n c c' K L L) as H. cbn [fst snd] in H. specialize (H (Z.eqb_refl l) C C').
  unfold same_but_x in H. apply orb_true_iff in H as [H|H]; [left; apply Z.eqb_eq in H; lia|right]. apply andb_true_iff in H as [H1 H2].
  apply String.eqb_eq in H1. apply Nat.leb_le in H2. split; [exact H1|lia].
Qed.
Lemma modes_order tyof l m m' g n c c' : knows_names tyof -> (0 <= l <= 3)%Z -> (rank m < rank m')%nat -> shipped_cost tyof l m g n c -> shipped_cost tyof l m' g n c' ->
  (c' <= c)%N \/ (m' = VChain /\ g = "x" /\ n = 3%N).
Proof.
  intros K L M C C'. pose proof (pairs_use _ _ all_ancillas tyof l m l m' g n c c' K L L) as H. cbn [fst snd] in H.
  assert (S : Z.eqb l l && Nat.ltb (rank m) (rank m') = true) by (apply andb_true_iff; split; [apply Z.eqb_refl|now apply Nat.ltb_lt]). specialize (H S C C').
  unfold ancillas in H. cbn [fst snd] in H. apply orb_true_iff in H as [H|H]; [left; apply Z.leb_le in H; lia|right].
  destruct m'; try discriminate. apply andb_true_iff in H as [H1 H2]. apply String.eqb_eq in H1. apply Nat.eqb_eq in H2. repeat split; try assumption. lia.
Qed.

(** *** two gates with the same number of controls in one file *)
Definition like_p (l : Z) (m : ancilla_mode) : bool :=
  let d := d_of l m in
  forallb (fun g => forallb (fun x => Z.eqb (fst (snd x)) (snd (snd x)) || (String.eqb g "z" && Nat.eqb (fst x) 1)) (zip (costs g d) (costs "p" d))) ["z"; "s"; "sdg"; "t"; "tdg"].
Lemma all_like_p : forall l m, (0 <= l <= 3)%Z -> like_p l m = true.
Proof. apply everywhere. vm_compute. reflexivity. Qed.
Lemma phase_gates tyof l m g n c c' : knows_names tyof -> (0 <= l <= 3)%Z -> In g ["z"; "s"; "sdg"; "t"; "tdg"] ->
  shipped_cost tyof l m g n c -> shipped_cost tyof l m "p" n c' -> c = c' \/ (g = "z" /\ n = 1%N).
Proof.
  intros K L I C C'. apply cost_dget in C as [_ C]; [|exact K|exact L]. apply cost_dget in C' as [_ C']; [|exact K|exact L].
  pose proof (all_like_p l m L) as H. unfold like_p in H. cbv zeta in H. rewrite forallb_forall in H. specialize (H g I). cbv beta in H. rewrite forallb_forall in H.
  specialize (H _ (zip_in _ _ _ _ _ C C')). cbn [fst snd] in H. apply orb_true_iff in H as [H|H]; [left; apply Z.eqb_eq in H; lia|right].
  apply andb_true_iff in H as [H1 H2]. apply String.eqb_eq in H1. apply Nat.eqb_eq in H2. split; [exact H1|lia].
Qed.

(** *** one gate with more and more controls *)
Fixpoint sortedb (a : list Z) : bool := match a with x :: (y :: _) as r => Z.leb x y && sortedb r | _ => true end.
Lemma sorted_le a : sortedb a = true -> forall i j x y, nth_error a i = Some x -> nth_error a j = Some y -> (i <= j)%nat -> (x <= y)%Z.
Proof.
  induction a as [|v a IH]; intros H i j x y I J L; [now destruct i|].
  assert (T : sortedb a = true) by (destruct a; [reflexivity|cbn in H; now apply andb_true_iff in H as [_ H]]). specialize (IH T).
  destruct i as [|i], j as [|j]; cbn in I, J.
  - injection I as <-. injection J as <-. lia.
  - injection I as <-. destruct a as [|w a]; [now destruct j|]. cbn [sortedb] in H. apply andb_true_iff in H as [H _]. apply Z.leb_le in H.
    pose proof (IH O j w y eq_refl J ltac:(lia)). lia.
  - lia.
  - apply (IH i j x y I J). lia.
Qed.
(** without the entry number [k] *)
Definition drop_one (k : nat) (a : list Z) : list Z := firstn k a ++ skipn (S k) a.
Lemma drop_before k a n : (n < k)%nat -> nth_error (drop_one k a) n = nth_error a n \/ nth_error a n = None.
Proof.
  revert a n. induction k as [|k IH]; intros a n L; [lia|]. destruct a as [|v a]; [right; now destruct n|]. destruct n as [|n]; [now left|]. cbn. apply IH. lia.
Qed.
Lemma drop_after k a n : (k < n)%nat -> (k < length a)%nat -> nth_error (drop_one k a) (n - 1) = nth_error a n.
Proof.
  revert a n. induction k as [|k IH]; intros [|v a] [|n] L B; cbn [length] in B; try lia.
  - cbn. now rewrite Nat.sub_0_r.
  - destruct n as [|n]; [lia|]. pose proof (IH a (S n) ltac:(lia) ltac:(lia)) as H. cbn [Nat.sub] in H |- *. rewrite Nat.sub_0_r in H. exact H.
Qed.
Definition growing (l : Z) (m : ancilla_mode) : bool :=
  let d := d_of l m in
  forallb (fun g => let cs := costs g d in
    if Z.eqb l 0 && mode_eqb m Recursion && String.eqb g "x" then sortedb (drop_one 4 cs) && sortedb (drop_one 5 cs) else sortedb cs) profile_gates.
Lemma all_growing : forall l m, (0 <= l <= 3)%Z -> growing l m = true.
Proof. apply everywhere. vm_compute. reflexivity. Qed.
Lemma more_controls tyof l m g n n' c c' : knows_names tyof -> (0 <= l <= 3)%Z -> (n <= n')%N -> shipped_cost tyof l m g n c -> shipped_cost tyof l m g n' c' ->
  (c <= c')%N \/ (l = 0%Z /\ m = Recursion /\ g = "x" /\ n = 4%N /\ n' = 5%N).
Proof.
  intros K L LE C C'. apply cost_dget in C as [G C]; [|exact K|exact L]. apply cost_dget in C' as [_ C']; [|exact K|exact L].
  pose proof (all_growing l m L) as H. unfold growing in H. cbv zeta in H. rewrite forallb_forall in H. specialize (H g G). cbv beta in H.
  destruct (Z.eqb l 0 && mode_eqb m Recursion && String.eqb g "x") eqn:E.
  - rewrite !andb_true_iff in E. destruct E as [[E1 E2] E3]. apply Z.eqb_eq in E1. apply mode_eqb_eq in E2. apply String.eqb_eq in E3. subst l m g.
    apply andb_true_iff in H as [H4 H5].
    destruct (dget_costs 0 Recursion "x" O L G) as [_ LEN]. change (count "x") with 128%nat in LEN.
    assert (LT : (N.to_nat n' < 128)%nat) by (rewrite <- LEN; apply nth_error_Some; congruence).
    destruct (N.eq_dec n 4) as [->|N4]; [destruct (N.eq_dec n' 5) as [->|N5]; [right; auto|]|].
    + left. destruct (N.eq_dec n' 4) as [->|N6]; [assert (Some (Z.of_N c) = Some (Z.of_N c')) as X by congruence; injection X as X; lia|].
      assert (P : nth_error (drop_one 5 (costs "x" (d_of 0 Recursion))) 4 = Some (Z.of_N c)).
      { destruct (drop_before 5 (costs "x" (d_of 0 Recursion)) 4 ltac:(lia)) as [->|X]; [exact C|]. change (N.to_nat 4) with 4%nat in C. congruence. }
      assert (P' : nth_error (drop_one 5 (costs "x" (d_of 0 Recursion))) (N.to_nat n' - 1) = Some (Z.of_N c')) by (rewrite drop_after; [exact C'|lia|lia]).
      pose proof (sorted_le _ H5 _ _ _ _ P P' ltac:(lia)). lia.
    + left. destruct (N.eq_dec n' 4) as [->|M4].
      * assert (P : nth_error (drop_one 5 (costs "x" (d_of 0 Recursion))) (N.to_nat n) = Some (Z.of_N c)).
        { destruct (drop_before 5 (costs "x" (d_of 0 Recursion)) (N.to_nat n) ltac:(lia)) as [->|X]; [exact C|congruence]. }
        assert (P' : nth_error (drop_one 5 (costs "x" (d_of 0 Recursion))) 4 = Some (Z.of_N c')).
        { destruct (drop_before 5 (costs "x" (d_of 0 Recursion)) 4 ltac:(lia)) as [->|X]; [exact C'|]. change (N.to_nat 4) with 4%nat in C'. congruence. }
        pose proof (sorted_le _ H5 _ _ _ _ P P' ltac:(lia)). lia.
      * assert (Q : forall k v, nth_error (costs "x" (d_of 0 Recursion)) k = Some v -> k <> 4%nat -> (k < 128)%nat ->
          nth_error (drop_one 4 (costs "x" (d_of 0 Recursion))) (if Nat.ltb k 4 then k else k - 1) = Some v).
        { intros k v V NE KL. destruct (Nat.ltb_spec k 4).
          - destruct (drop_before 4 (costs "x" (d_of 0 Recursion)) k ltac:(lia)) as [->|X]; [exact V|congruence].
          - rewrite drop_after; [exact V|lia|lia]. }
        assert (LT0 : (N.to_nat n < 128)%nat) by lia.
        pose proof (sorted_le _ H4 _ _ _ _ (Q _ _ C ltac:(lia) LT0) (Q _ _ C' ltac:(lia) LT)) as Z0.
        assert (Z1 : (Z.of_N c <= Z.of_N c')%Z) by (apply Z0; destruct (Nat.ltb_spec (N.to_nat n) 4), (Nat.ltb_spec (N.to_nat n') 4); lia). lia.
  - left. pose proof (sorted_le _ H _ _ _ _ C C' ltac:(lia)). lia.
Qed.

(** *** zero *)
Definition swap_zero (l : Z) (m : ancilla_mode) : bool := match costs "swap" (d_of l m) with c :: _ => Bool.eqb (Z.eqb c 0) (Z.leb 2 l) | [] => false end.
Lemma all_swap_zero : forall l m, (0 <= l <= 3)%Z -> swap_zero l m = true.
Proof. apply everywhere. vm_compute. reflexivity. Qed.
Lemma cost_range tyof l m g n c : knows_names tyof -> (0 <= l <= 3)%Z -> shipped_cost tyof l m g n c ->
  (c < 1000000)%N /\ (c = 0%N <-> g = "swap" /\ n = 0%N /\ (2 <= l)%Z).
Proof.
  intros K L C. apply cost_dget in C as [G C]; [|exact K|exact L]. pose proof C as D. rewrite <- (proj1 (dget_costs l m g (N.to_nat n) L G)) in D.
  destruct (dget_fine _ _ _ _ L D) as [R P]. cbn [fst snd] in P. split; [lia|]. split.
  - intros ->. destruct P as [P|(P1 & P2 & P3)]; [cbn in P; lia|]. split; [exact P1|]. split; [lia|exact P3].
  - intros (-> & -> & L2). pose proof (all_swap_zero l m L) as H. unfold swap_zero in H. destruct (costs "swap" (d_of l m)) as [|x r]; [discriminate|].
    cbn in C. injection C as ->. apply Z.leb_le in L2. rewrite L2 in H. destruct (Z.eqb_spec (Z.of_N c) 0); [lia|discriminate].
Qed.
