(** The preparation of the circuits does not look into the operations, rounding. *)
From Coq Require Import List Bool Arith QArith Qabs Lia.
From Verif Require Import Perm Prep PyParam PyParamSpec PyParamProofs ParamInst.
Import ListNotations.

Section Nat.
Variables (A B : Type) (onA : A -> nat -> bool) (onB : B -> nat -> bool) (f : A -> B).
Definition mapc (c : circ A) : circ B := with_ops c (map f (q_ops c)).
Definition ok (c : circ A) : Prop := forall o, In o (q_ops c) -> forall q, onB (f o) q = onA o q.
Definition pmap {T U} (g : T -> U) (r : pres T) : pres U := pbind r (fun x => PVal (g x)).
Definition map2c (r : circ A * circ A) := (mapc (fst r), mapc (snd r)).

Lemma idle_map c p : ok c -> isIdle onB (mapc c) p = isIdle onA c p.
Proof.
  intros H. unfold isIdle. f_equal. cbn. unfold ok in H. induction (q_ops c) as [|o l IH]; cbn; auto.
  rewrite H by (now left). f_equal. apply IH. intros; apply H. now right.
Qed.
Lemma remove_map c l : removeQubit (mapc c) l = option_map (fun r => (mapc (fst r), snd r)) (removeQubit c l).
Proof. unfold removeQubit. cbn. now destruct (qkey l (q_lay c)). Qed.
Lemma remove_ok c l r : ok c -> removeQubit c l = Some r -> ok (fst r).
Proof. unfold removeQubit. destruct (qkey l (q_lay c)); [|discriminate]. intros H E. injection E as <-. exact H. Qed.

Definition map3 (st : circ A * circ A * nat) := (mapc (fst (fst st)), mapc (snd (fst st)), snd st).
Lemma step_map nd L Sm d p : ok L -> ok Sm ->
  strip_step onB nd (map3 (L, Sm, d)) p = pmap map3 (strip_step onA nd (L, Sm, d) p) /\
  forall st, strip_step onA nd (L, Sm, d) p = PVal st -> ok (fst (fst st)) /\ ok (snd (fst st)).
Proof.
  intros HL HS. unfold strip_step. cbn [map3 fst snd]. rewrite idle_map by auto.
  destruct (isIdle onA L p); cbn [negb]; [|split; [reflexivity|intros ? [= <-]; auto]].
  change (q_lay (mapc L)) with (q_lay L). destruct (qfind p (q_lay L)) as [l|]; [|split; [reflexivity|discriminate]].
  change (q_n (mapc Sm)) with (q_n Sm). change (q_lay (mapc Sm)) with (q_lay Sm).
  change (safeToRemove (mapc L) p l) with (safeToRemove L p l).
  destruct ((0 <? d)%nat && _).
  - destruct (safeToRemove L p l); cbn [negb]; [|split; [reflexivity|intros ? [= <-]; auto]].
    rewrite remove_map. destruct (removeQubit L l) as [[L' x]|] eqn:E; cbn; [|split; [reflexivity|discriminate]].
    split; [reflexivity|]. intros st [= <-]. cbn. split; auto. exact (remove_ok _ _ _ HL E).
  - destruct (qkey l (q_lay Sm)) as [pS|]; [|destruct nd; split; try reflexivity; discriminate].
    rewrite idle_map by auto. destruct (isIdle onA Sm pS); cbn [negb]; [|split; [reflexivity|intros ? [= <-]; auto]].
    change (safeToRemove (mapc Sm) pS l) with (safeToRemove Sm pS l).
    destruct (safeToRemove L p l); cbn [negb]; [|split; [reflexivity|intros ? [= <-]; auto]].
    destruct (safeToRemove Sm pS l); cbn [negb]; [|split; [reflexivity|intros ? [= <-]; auto]].
    rewrite !remove_map. destruct (removeQubit L l) as [[L' x]|] eqn:E; cbn; [|split; [reflexivity|discriminate]].
    destruct (removeQubit Sm l) as [[S' y]|] eqn:E'; cbn; [|split; [reflexivity|discriminate]].
    split; [reflexivity|]. intros st [= <-]. cbn. split; [exact (remove_ok _ _ _ HL E)|exact (remove_ok _ _ _ HS E')].
Qed.
Lemma loop_bad nd ps (r : pres (circ A * circ A * nat)) : (forall x, r <> PVal x) -> fold_left (fun m p => pbind m (fun st => strip_step onA nd st p)) ps r = r.
Proof. intros H. induction ps as [|p ps IH]; cbn; auto. destruct r; cbn; auto. now destruct (H x). Qed.
Lemma loop_bad' nd ps (r : pres (circ B * circ B * nat)) : (forall x, r <> PVal x) -> fold_left (fun m p => pbind m (fun st => strip_step onB nd st p)) ps r = r.
Proof. intros H. induction ps as [|p ps IH]; cbn; auto. destruct r; cbn; auto. now destruct (H x). Qed.
Lemma loop_map nd ps : forall L Sm d, ok L -> ok Sm -> strip_loop onB nd ps (map3 (L, Sm, d)) = pmap map3 (strip_loop onA nd ps (L, Sm, d)) /\
  forall st, strip_loop onA nd ps (L, Sm, d) = PVal st -> ok (fst (fst st)) /\ ok (snd (fst st)).
Proof.
  induction ps as [|p ps IH]; intros L Sm d HL HS; [split; [reflexivity|intros ? [= <-]; auto]|].
  unfold strip_loop in *. cbn [fold_left pbind]. destruct (step_map nd L Sm d p HL HS) as [E K]. rewrite E. clear E.
  destruct (strip_step onA nd (L, Sm, d) p) as [[[L' S'] d']| | |]; cbn [pmap pbind].
  - destruct (K _ eq_refl) as [HL' HS']. apply (IH L' S' d' HL' HS').
  - rewrite loop_bad, loop_bad' by discriminate. split; [reflexivity|discriminate].
  - rewrite loop_bad, loop_bad' by discriminate. split; [reflexivity|discriminate].
  - rewrite loop_bad, loop_bad' by discriminate. split; [reflexivity|discriminate].
Qed.
Lemma strip_map nd L Sm : ok L -> ok Sm -> strip onB nd (mapc L) (mapc Sm) = pmap map2c (strip onA nd L Sm) /\
  forall r, strip onA nd L Sm = PVal r -> ok (fst r) /\ ok (snd r).
Proof.
  intros HL HS. unfold strip. destruct (loop_map nd (rev (map fst (q_lay L))) L Sm (q_n L - q_n Sm) HL HS) as [E K].
  change (strip_loop onB nd (rev (map fst (q_lay (mapc L)))) (mapc L, mapc Sm, (q_n (mapc L) - q_n (mapc Sm))%nat)) with
    (strip_loop onB nd (rev (map fst (q_lay L))) (map3 (L, Sm, (q_n L - q_n Sm)%nat))).
  rewrite E. clear E. destruct (strip_loop _ _ _ _) as [st| | |]; cbn; split; try reflexivity; try discriminate.
  intros r [= <-]. exact (K st eq_refl).
Qed.

Lemma removeTop_map k : forall L acc, removeTop k (mapc L) acc = option_map (fun r => (mapc (fst r), snd r)) (removeTop k L acc).
Proof.
  induction k as [|k IH]; intros L acc; [reflexivity|]. cbn [removeTop]. rewrite remove_map. change (q_lay (mapc L)) with (q_lay L). change (q_gar (mapc L)) with (q_gar L).
  destruct (removeQubit L (maxValue (q_lay L))) as [[L' [p o]]|]; [|reflexivity]. apply IH.
Qed.
Lemma addReg_map k c : addAncillaryRegister k (mapc c) = mapc (addAncillaryRegister k c).
Proof.
  unfold addAncillaryRegister. change (q_n (mapc c)) with (q_n c).
  assert (H : forall l c, fold_left (fun (c : circ B) j => mkCirc (q_ops c) (S (q_n c)) (qinsert j j (q_lay c)) (qinsert j j (q_out c)) (fun i => if (i =? j)%nat then true else q_anc c i) (fun i => if (i =? j)%nat then false else q_gar c i)) l (mapc c) =
     mapc (fold_left (fun (c : circ A) j => mkCirc (q_ops c) (S (q_n c)) (qinsert j j (q_lay c)) (qinsert j j (q_out c)) (fun i => if (i =? j)%nat then true else q_anc c i) (fun i => if (i =? j)%nat then false else q_gar c i)) l c)).
  { induction l as [|j l IH]; intros c0; [reflexivity|]. cbn [fold_left]. rewrite <- IH. reflexivity. }
  apply H.
Qed.
Lemma addBack_map rs : forall L Sm, addBack rs (mapc L) (mapc Sm) = option_map map2c (addBack rs L Sm).
Proof.
  induction rs as [|[[p o] g] rs IH]; intros L Sm; cbn; auto.
  assert (E : addAncillaryQubit p o (mapc L) = option_map mapc (addAncillaryQubit p o L)).
  { unfold addAncillaryQubit. cbn. destruct (qfind p (q_lay L)); auto. now destruct (qfind p (q_out L)). }
  rewrite E. destruct (addAncillaryQubit p o L) as [L1|]; cbn; auto.
  destruct g; [apply (IH (setGarbage (q_n L1 - 1) L1) (setGarbage (q_n L1 - 1) Sm))|apply (IH L1 (setGarbage (q_n L1 - 1) Sm))].
Qed.
Lemma setup_map L Sm : setupAncillariesAndGarbage (mapc L) (mapc Sm) = pmap map2c (setupAncillariesAndGarbage L Sm).
Proof.
  unfold setupAncillariesAndGarbage. change (q_n (mapc L)) with (q_n L). change (q_n (mapc Sm)) with (q_n Sm).
  rewrite removeTop_map. destruct (removeTop (q_n L - q_n Sm) L []) as [[L' rs]|]; cbn; auto.
  rewrite addReg_map, addBack_map. now destruct (addBack rs L' _) as [[a b]|].
Qed.
Lemma prepare_map nd c1 c2 : ok c1 -> ok c2 -> prepare onB nd (mapc c1) (mapc c2) = pmap map2c (prepare onA nd c1 c2).
Proof.
  intros H1 H2. unfold prepare. set (P := as_larger (strip onA nd) c1 c2).
  assert (E : as_larger (strip onB nd) (mapc c1) (mapc c2) = pmap map2c P).
  { unfold P, as_larger. change (q_n (mapc c1)) with (q_n c1). change (q_n (mapc c2)) with (q_n c2).
    destruct (q_n c2 <? q_n c1)%nat.
    - now apply strip_map.
    - rewrite (proj1 (strip_map nd c2 c1 H2 H1)). now destruct (strip onA nd c2 c1). }
  rewrite E. destruct P as [[a b]| | |]; auto. unfold pmap. cbn. unfold as_larger. change (q_n (mapc a)) with (q_n a). change (q_n (mapc b)) with (q_n b).
  destruct (q_n b <? q_n a)%nat; rewrite setup_map; unfold pmap; [reflexivity|]. now destruct (setupAncillariesAndGarbage b a).
Qed.
End Nat.

(* rounding *)
Lemma round0_harmless tol x : (Qabs x < tol -> x == 0)%Q -> (round0 tol x == x)%Q.
Proof.
  intros H. unfold round0. destruct (Qle_bool tol (Qabs x)) eqn:E; [reflexivity|]. symmetry. apply H. apply Qnot_le_lt. intros L.
  apply Qle_bool_iff in L. congruence.
Qed.
Lemma rounded_harmless {Op} tol a (o : pop Op) : (forall x, In x (values_of a o) -> Qabs x < tol -> x == 0)%Q -> Forall2 Qeq (rounded tol a o) (values_of a o).
Proof.
  intros H. unfold rounded. assert (R : forall l, Forall2 Qeq l l) by (induction l; constructor; auto; reflexivity).
  destruct (o_mutable o); auto. induction (values_of a o) as [|x l IH]; cbn; constructor.
  - apply round0_harmless. apply H. now left.
  - apply IH. intros; apply H; auto. now right.
Qed.
