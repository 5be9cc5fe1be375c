(** Proofs about the qubits the stimuli are random on. *)
From Coq Require Import List Bool NArith Arith Lia.
From Verif Require Import Criterion Config SeqFlow SeqSpec Perm PermSpec StateGen StateGenSpec StateGenProofs StateGenProofs2 Prep PrepSpec PrepProofs3 Passes Stim StimSpec.
Import ListNotations.

Lemma filter_length_le {A} (f : A -> bool) l : length (filter f l) <= length l.
Proof. induction l as [|x l IH]; cbn; [lia|]. destruct (f x); cbn; lia. Qed.
Lemma primary_le {A} (c : circ A) : primary c <= q_n c.
Proof. unfold primary. rewrite <- (seq_length (q_n c) 0) at 2. apply filter_length_le. Qed.
Lemma primary_bound {A} (c : circ A) q : q <= q_n c -> (forall q', q <= q' < q_n c -> q_anc c q' = true) -> primary c <= q.
Proof.
  intros L H. unfold primary. replace (q_n c) with (q + (q_n c - q)) by lia. rewrite seq_app, filter_app, app_length. cbn [Nat.add].
  assert (E : filter (fun x => negb (q_anc c x)) (seq q (q_n c - q)) = []).
  { assert (X : forall x, In x (seq q (q_n c - q)) -> q_anc c x = true) by (intros x I; apply in_seq in I; apply H; lia).
    induction (seq q (q_n c - q)) as [|x l IH]; [reflexivity|]. cbn. rewrite (X x (or_introl eq_refl)). cbn. apply IH. intros y I. apply X. now right. }
  rewrite E. cbn. rewrite Nat.add_0_r. rewrite <- (seq_length q 0) at 2. apply filter_length_le.
Qed.
Lemma last_primary {A} (c : circ A) q : ancillaries_last c -> q < q_n c -> q_anc c q = true -> primary c <= q.
Proof. intros L Q E. apply primary_bound; [lia|]. intros q' I. apply (L q q'); auto; lia. Qed.
(** the count says where the ancillaries are exactly if they are last *)
Lemma primary_exact {A} (c : circ A) : ancillaries_last c -> forall q, q < q_n c -> (q_anc c q = true <-> primary c <= q).
Proof.
  intros L q Q. split; [apply last_primary; auto|]. intros P. destruct (q_anc c q) eqn:E; [reflexivity|exfalso].
  assert (S q <= primary c); [|lia]. unfold primary. replace (q_n c) with (S q + (q_n c - S q)) by lia.
  rewrite seq_app, filter_app, app_length.
  assert (X : filter (fun x => negb (q_anc c x)) (seq 0 (S q)) = seq 0 (S q)).
  { assert (Y : forall x, In x (seq 0 (S q)) -> q_anc c x = false).
    { intros x I. apply in_seq in I. destruct (q_anc c x) eqn:Ex; [|reflexivity]. rewrite (L x q) in E; auto; lia. }
    induction (seq 0 (S q)) as [|x l IH]; [reflexivity|]. cbn. rewrite (Y x (or_introl eq_refl)). cbn. f_equal. apply IH. intros y I. apply Y. now right. }
  rewrite X, seq_length. lia.
Qed.

Section Gen.
Context {A MT : Type} (word : MT -> N * MT) (unif : N -> MT -> N * MT).

Lemma generate_above nd fuel total anc t (g : gen MT) s g' : anc <= total ->
  generate MT word unif nd fuel total anc t g = GState s g' -> forall q, total - anc <= q -> zero_on s q.
Proof.
  intros L E q Q. destruct t; cbn [generate] in E.
  - destruct (genComputational MT word unif nd fuel total anc g) as [bs h| | |] eqn:G; try discriminate. cbn in E. injection E as <- <-. cbn.
    destruct (Nat.le_gt_cases (total - anc) 63) as [R|R].
    + apply genC_state in G; auto. destruct G as (_ & _ & n & v & _ & _ & _ & _ & -> & _). destruct (fill_basis_state total (total - anc) v ltac:(lia)) as (_ & _ & H). auto.
    + destruct (large_shape word unif nd fuel total anc g ltac:(lia)) as (bs' & E' & _ & _ & H). cbn [generate] in E'. rewrite G in E'. cbn in E'.
      injection E' as Eb Eg. rewrite Eb. auto.
  - destruct (local_shape word unif nd fuel total anc g L) as (bs & h & E' & _ & _ & _ & _ & H). cbn [generate] in E'. rewrite E in E'. injection E' as -> ->. cbn. auto.
  - unfold genStabilizer in E. destruct (total <? anc) eqn:B; [discriminate|]. destruct (total - anc =? 0); [discriminate|].
    destruct (word (g_mt g)) as [w m']. cbn in E. injection E as <- <-. cbn. auto.
Qed.

Lemma stimulus_above nd fuel (c1 c2 : circ A) t (g : gen MT) s g' : setRandomInitialState word unif nd fuel c1 c2 t g = GState s g' ->
  forall q, primary c1 <= q -> zero_on s q.
Proof.
  intros E q Q. unfold setRandomInitialState in E. pose proof (primary_le c1). eapply generate_above; [|exact E|]; lia.
Qed.
Lemma drawn_above (c1 c2 : circ A) t (e : env stimulus (gen MT)) g s : stimuli_of word unif c1 c2 t e -> drawn_from e g s ->
  forall q, primary c1 <= q -> zero_on s q.
Proof.
  intros U (l & g' & D). revert g D. induction l as [|x l IH]; intros g D q Q; cbn in D; inversion D as [|? ? g1 ? ? E D']; subst.
  - apply U in E. destruct E as [fuel E]. eapply stimulus_above; eauto.
  - eapply IH; eauto.
Qed.
End Gen.

(** a source that always answers the same *)
Definition const_word (v : N) : unit -> N * unit := fun _ => (v, tt).
Definition const_unif (f : N -> N) : N -> unit -> N * unit := fun hi _ => (f hi, tt).
Lemma words_const v n m : fst (words unit (const_word v) n m) = repeat v n.
Proof. revert m. induction n as [|n IH]; intros m; [reflexivity|]. cbn. destruct (words unit (const_word v) n tt) as [ws m'] eqn:E. cbn. f_equal. specialize (IH tt). rewrite E in IH. exact IH. Qed.
Lemma bases_const d n m : fst (bases unit (const_unif (fun _ => d)) n m) = repeat (bstate_of d) n.
Proof. revert m. induction n as [|n IH]; intros m; [reflexivity|]. cbn. destruct (bases unit (const_unif (fun _ => d)) n tt) as [bs m'] eqn:E. cbn. f_equal. specialize (IH tt). rewrite E in IH. exact IH. Qed.
Lemma not_zero_below {A} (c1 c2 : circ A) t q : q < primary c1 ->
  exists word unif fuel g s g', in_range unif /\ setRandomInitialState word unif true fuel c1 c2 t g = @GState unit _ s g' /\ ~ zero_on s q.
Proof.
  intros Q. pose proof (primary_le c1) as P. set (n := Nat.max (q_n c1) (q_n c2)). assert (R : n - (n - primary c1) = primary c1) by lia.
  destruct t.
  - destruct (Nat.le_gt_cases (primary c1) 63) as [S|S].
    + exists (const_word 0), (const_unif (fun hi => hi)), 1, (mkGen tt []).
      assert (B : basis_state n (primary c1) (2 ^ N.of_nat (primary c1) - 1) (fill n (primary c1) (fun i => N.testbit (2 ^ N.of_nat (primary c1) - 1) (N.of_nat i))))
        by (apply fill_basis_state; lia).
      eexists. eexists. split; [intros hi m; cbn; lia|]. split.
      * unfold setRandomInitialState. fold n. cbn [generate]. unfold genComputational. destruct (Nat.ltb_spec n (n - primary c1)); [lia|]. rewrite R.
        destruct (Nat.leb_spec (primary c1) 63); [|lia]. cbn [andb negb]. rewrite shiftl_pow. cbn. reflexivity.
      * cbn. destruct B as (_ & B & _). rewrite B by lia.
        rewrite <- N.pred_sub, <- N.ones_equiv, N.ones_spec_low by lia. discriminate.
    + exists (const_word (2 ^ 64 - 1)), (const_unif (fun _ => 0%N)), 1, (mkGen tt []).
      destruct (large_shape (const_word (2 ^ 64 - 1)) (const_unif (fun _ => 0%N)) true 1 n (n - primary c1) (mkGen tt []) ltac:(lia)) as (bs & E & _ & H & _).
      exists (SBits bs). eexists. split; [intros hi m; cbn; lia|]. split; [exact E|]. cbn. destruct (H q ltac:(lia)) as [H1 H2]. rewrite H2.
      cbn [const_word fst]. change (2 ^ 64 - 1)%N with (N.ones 64). rewrite N.ones_spec_low; [discriminate|]. pose proof (Nat.mod_upper_bound q 64 ltac:(lia)). lia.
  - exists (const_word 0), (const_unif (fun hi => N.min hi 1)), 1, (mkGen tt []).
    destruct (local_shape (const_word 0) (const_unif (fun hi => N.min hi 1)) true 1 n (n - primary c1) (mkGen tt []) ltac:(lia)) as (bs & g' & E & _ & _ & _ & H & _).
    exists (SBases bs), g'. split; [intros hi m; cbn; lia|]. split; [exact E|]. cbn. rewrite H by lia.
    assert (X : forall i m, drawn unit (const_unif (fun hi => N.min hi 1)) i 5 m = 1%N) by (induction i; intros; [reflexivity|cbn; apply IHi]). rewrite X. discriminate.
  - exists (const_word 0), (const_unif (fun _ => 0%N)), 1, (mkGen tt []).
    destruct (stabilizer_shape (const_word 0) (const_unif (fun _ => 0%N)) true 1 n (n - primary c1) (mkGen tt []) ltac:(lia)) as (s & g' & E & _ & _ & H & _).
    exists (SStab s), g'. split; [intros hi m; cbn; lia|]. split; [exact E|]. cbn. lia.
Qed.

(** after the preparation *)
Section Prep.
Context {A : Type} (actsOn : A -> nat -> bool).
Lemma shrunk_last f (c s : circ A) : increasing f -> shrunk actsOn f c s -> ancillaries_last c -> ancillaries_last s.
Proof.
  intros F (_ & _ & _ & _ & S) L q q' Q Q' E. destruct (S q ltac:(lia)) as (B & Ea & _), (S q' Q') as (B' & Ea' & _).
  rewrite Ea'. apply (L (f q)); auto; [|congruence]. destruct (Nat.eq_dec q q') as [->|N]; [lia|]. pose proof (F q q' ltac:(lia)). lia.
Qed.
Lemma prepared_last nd (c1 c2 c1' c2' : circ A) : wf_circ c1 -> wf_circ c2 -> prepare actsOn nd c1 c2 = PVal (c1', c2') ->
  ancillaries_last c1 -> ancillaries_last c1'.
Proof.
  intros W1 W2 E L. destruct (prepare_main actsOn nd c1 c2 W1 W2) as (s1 & s2 & f & d1 & d2 & E' & F & X1 & X2 & F1 & F2 & _ & _ & H).
  rewrite E in E'. injection E' as <- <-. pose proof (shrunk_last f c1 s1 F F1 L) as L1. destruct (Nat.ltb_spec (q_n s2) (q_n s1)) as [B|B].
  - destruct H as [(_ & En & _ & _ & _ & _ & Lo & Hi) _]. intros q q' Q Q' Ea. rewrite En in Q'.
    destruct (Nat.lt_ge_cases q' (q_n s2)) as [Q2|Q2].
    + destruct (Lo q' Q2) as [-> _]. destruct (Lo q ltac:(lia)) as [Eq _]. rewrite Eq in Ea. apply (L1 q); auto.
    + destruct X1 as (_ & _ & V & _). destruct (proj2 (V q') Q') as [p P]. apply (Hi p q' P Q2).
  - destruct H as [_ (_ & En & _ & _ & Lo & Hi)]. intros q q' Q Q' Ea. rewrite En in Q'.
    destruct (Nat.lt_ge_cases q' (q_n s1)) as [Q2|Q2].
    + destruct (Lo q' Q2) as [-> _]. destruct (Lo q ltac:(lia)) as [Eq _]. rewrite Eq in Ea. apply (L1 q); auto.
    + apply Hi. lia.
Qed.
End Prep.
