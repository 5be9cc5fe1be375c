From Coq Require Import List Bool Arith Lia Relations.
From Verif Require Import Criterion Perm PermSpec PermProofs ZX ZXSpec.
Import ListNotations.

(** ** verdict *)
Lemma check_true nd g1 g2 p1 p2 M is : check_wires nd g1 g2 p1 p2 M is = WOk true <->
  forall i, In i is -> (g1 i = true /\ g2 i = true) \/ plain_wire p1 p2 M i.
Proof.
  induction is as [|i r IH]; cbn [check_wires]; [split; [intros _ i []|auto]|].
  destruct (g1 i && g2 i) eqn:G.
  - apply andb_true_iff in G. rewrite IH. split.
    + intros H j [<-|J]; auto.
    + intros H j J. apply H. now right.
  - assert (NG : ~ (g1 i = true /\ g2 i = true)) by (rewrite <- andb_true_iff, G; discriminate).
    destruct (z_wire M i) as [[[|] [q1|]] [q2|]] eqn:Z; try (split; [try discriminate; destruct nd; discriminate|];
      intros H; exfalso; destruct (H i (or_introl eq_refl)) as [H1|(a & b & l & H1 & _)]; [tauto|congruence]).
    destruct (qfind q1 p1) as [l1|] eqn:Q1, (qfind q2 p2) as [l2|] eqn:Q2;
      try (split; [discriminate|]; intros H; exfalso; destruct (H i (or_introl eq_refl)) as [H1|(a & b & l & H1 & H2 & H3)]; [tauto|];
           rewrite Z in H1; injection H1 as <- <-; unfold maps in *; congruence).
    destruct (Nat.eqb_spec l1 l2) as [->|N].
    + rewrite IH. split.
      * intros H j [<-|J]; auto. right. exists q1, q2, l2. auto.
      * intros H j J. apply H. now right.
    + split; [discriminate|]. intros H; exfalso; destruct (H i (or_introl eq_refl)) as [H1|(a & b & l & H1 & H2 & H3)]; [tauto|].
      rewrite Z in H1; injection H1 as <- <-; unfold maps in *; congruence.
Qed.

Lemma check_total nd g1 g2 p1 p2 M is : (forall i, In i is -> exists t q1 q2, z_wire M i = (t, Some q1, Some q2) /\ keys p1 q1 /\ keys p2 q2) ->
  exists b, check_wires nd g1 g2 p1 p2 M is = WOk b.
Proof.
  induction is as [|i r IH]; intros H; cbn [check_wires]; [eauto|].
  assert (exists b, check_wires nd g1 g2 p1 p2 M r = WOk b) as (b & E) by (apply IH; intros j J; apply H; now right).
  destruct (g1 i && g2 i); [eauto|]. destruct (H i (or_introl eq_refl)) as (t & q1 & q2 & Z & (l1 & K1) & (l2 & K2)). rewrite Z.
  unfold maps in *. destruct t; [|eauto]. rewrite K1, K2. destruct (l1 =? l2); eauto.
Qed.

Section Run.
Context (nd anc done : bool) (g1 g2 : nat -> bool) (out1 lay1 : qmap) (n1 : nat) (out2 lay2 : qmap) (n2 : nat) (M : miter).
Notation run := (zx_run nd anc done g1 g2 out1 lay1 n1 out2 lay2 n2 M).

Lemma run_vals c : run = ZVerdict c -> c = Equivalent \/ c = EquivalentUpToGlobalPhase \/ c = ProbablyNotEquivalent \/ c = NoInformation.
Proof.
  unfold zx_run. destruct (z_nedges M =? z_nqubits M).
  - destruct (invertPermutations out1 lay1 n1), (invertPermutations out2 lay2 n2); try discriminate.
    destruct (check_wires _ _ _ _ _ _ _) as [b| | |]; try discriminate. intros E. injection E as <-. destruct b, anc, done, (z_phase0 M); cbn; auto.
  - intros E. injection E as <-. destruct anc, done; cbn; auto.
Qed.

Lemma run_positive r1 r2 c : invertPermutations out1 lay1 n1 = Some r1 -> invertPermutations out2 lay2 n2 = Some r2 ->
  c = Equivalent \/ c = EquivalentUpToGlobalPhase ->
  (run = ZVerdict c <-> done = false /\ all_plain g1 g2 (invert r1) (invert r2) M /\ c = (if z_phase0 M then Equivalent else EquivalentUpToGlobalPhase)).
Proof.
  intros E1 E2 P. unfold zx_run, all_plain. rewrite E1, E2. destruct (Nat.eqb_spec (z_nedges M) (z_nqubits M)) as [E|N].
  - pose proof (check_true nd g1 g2 (invert r1) (invert r2) M (seq 0 (z_nqubits M))) as CT.
    assert (X : check_wires nd g1 g2 (invert r1) (invert r2) M (seq 0 (z_nqubits M)) = WOk true <->
      z_nedges M = z_nqubits M /\ (forall i, i < z_nqubits M -> g1 i = true /\ g2 i = true \/ plain_wire (invert r1) (invert r2) M i)).
    { rewrite CT. split; [intros H; split; auto; intros i L; apply H; apply in_seq; lia|intros [_ H] i I; apply H; apply in_seq in I; lia]. }
    destruct (check_wires _ _ _ _ _ _ _) as [b| | |] eqn:CW;
      try (split; [discriminate|intros (_ & H & _); apply X in H; discriminate]).
    destruct b.
    + destruct X as [X _]. specialize (X eq_refl). cbn. split.
      * intros H. injection H as <-. destruct done; [destruct P; discriminate|]. cbn. auto.
      * intros (-> & _ & ->). reflexivity.
    + split.
      * intros H. injection H as <-. destruct P as [P|P], anc, done; discriminate.
      * intros (_ & H & _). apply X in H. discriminate.
  - split; [|intros (_ & (H & _) & _); contradiction]. intros H. injection H as <-. destruct P as [P|P], anc, done; discriminate.
Qed.

Lemma run_negative r1 r2 : invertPermutations out1 lay1 n1 = Some r1 -> invertPermutations out2 lay2 n2 = Some r2 ->
  lookups_ok (invert r1) (invert r2) M ->
  (exists c, run = ZVerdict c) /\
  (run = ZVerdict ProbablyNotEquivalent <-> done = false /\ anc = false /\ ~ all_plain g1 g2 (invert r1) (invert r2) M) /\
  (run = ZVerdict NoInformation <-> done = true \/ (anc = true /\ ~ all_plain g1 g2 (invert r1) (invert r2) M)).
Proof.
  intros E1 E2 LK. unfold zx_run. rewrite E1, E2.
  destruct (check_total nd g1 g2 (invert r1) (invert r2) M (seq 0 (z_nqubits M))) as (b & CW). { intros i I. apply LK. apply in_seq in I. lia. }
  assert (X : (z_nedges M =? z_nqubits M) = true /\ b = true <-> all_plain g1 g2 (invert r1) (invert r2) M).
  { unfold all_plain. rewrite Nat.eqb_eq. split.
    - intros [A ->]. split; auto. intros i L. refine (proj1 (check_true _ _ _ _ _ _ _) CW i _). apply in_seq. lia.
    - intros [A H]. split; auto. assert (Y : check_wires nd g1 g2 (invert r1) (invert r2) M (seq 0 (z_nqubits M)) = WOk true).
      { apply check_true. intros i I. apply H. apply in_seq in I. lia. }
      congruence. }
  rewrite CW. destruct (z_nedges M =? z_nqubits M) eqn:EE.
  - split; [eauto|]. destruct b.
    + assert (AP : all_plain g1 g2 (invert r1) (invert r2) M) by tauto. cbn. split; split.
      * destruct done, (z_phase0 M); discriminate.
      * tauto.
      * destruct done, (z_phase0 M); try discriminate; auto.
      * intros [->|[_ H]]; [reflexivity|contradiction].
    + assert (NP : ~ all_plain g1 g2 (invert r1) (invert r2) M) by (intros H; apply X in H as [_ H]; discriminate). cbn. split; split.
      * destruct anc, done; try discriminate; auto.
      * intros (-> & -> & _). reflexivity.
      * destruct anc, done; try discriminate; auto.
      * intros [->|[-> _]]; [rewrite orb_true_r|]; reflexivity.
  - assert (NP : ~ all_plain g1 g2 (invert r1) (invert r2) M) by (intros H; apply X in H as [H _]; discriminate). cbn.
    split; [eauto|]. split; split.
      * destruct anc, done; try discriminate; auto.
      * intros (-> & -> & _). reflexivity.
      * destruct anc, done; try discriminate; auto.
      * intros [->|[-> _]]; [rewrite orb_true_r|]; reflexivity.
Qed.
End Run.

(** ** constructor *)
Lemma ctor_ok_iff p1 p2 w n : ctor_lookups_ok p1 p2 w n = true <-> forall a, w <= a < n -> keys p1 a /\ keys p2 a.
Proof.
  unfold ctor_lookups_ok. rewrite forallb_forall. split.
  - intros H a L. specialize (H a). rewrite in_seq in H. specialize (H ltac:(lia)). unfold keys, maps.
    destruct (qfind a p1), (qfind a p2); try discriminate. eauto.
  - intros H a I. apply in_seq in I. destruct (H a ltac:(lia)) as ((v & A) & (v' & B)). unfold maps in *. now rewrite A, B.
Qed.

(** ** strategy *)
Section Reduce.
Context {D : Type} (done : nat -> bool) (R : rules D).
Notation act := (act D).

(** an action only performs steps of the reduction *)
Definition sound (a : act) : Prop := forall d k b d' k', a d k = Some (b, d', k') -> rsteps R d d'.
(** when the done flag is never set: an action that reports no simplification has left the diagram alone, and what it leaves satisfies P *)
Definition fixes (a : act) (P : D -> Prop) : Prop := forall d k b d' k', (forall j, done j = false) -> a d k = Some (b, d', k') -> P d' /\ (b = false -> d' = d).
Definition quiet (a : act) (P : D -> Prop) : Prop := forall d k b d' k', (forall j, done j = false) -> a d k = Some (b, d', k') -> b = false -> P d' /\ d' = d.

Lemma rsteps_refl d : rsteps R d d. Proof. apply rt_refl. Qed.
Lemma rsteps_trans d1 d2 d3 : rsteps R d1 d2 -> rsteps R d2 d3 -> rsteps R d1 d3. Proof. intros; eapply rt_trans; eauto. Qed.
Lemma rsteps_one d d' : rstep R d d' -> rsteps R d d'. Proof. apply rt_step. Qed.

Lemma forLoop_sound F fuel : In F (families R) -> forall it more, sound (forLoop D done F fuel it more).
Proof.
  intros IF. induction fuel as [|f IH]; intros it more d k b d' k' E; cbn [forLoop] in E; [discriminate|].
  destruct (f_next D F d it) as [i|]; [|injection E as <- <- <-; apply rsteps_refl].
  destruct (f_polls D F && done k); cbn [orb] in E.
  - eapply IH; eauto.
  - destruct (f_check D F d i) eqn:C; cbn [negb] in E.
    + apply IH in E. eapply rsteps_trans; [|exact E]. apply rsteps_one, rs_rule. exists F, i. auto.
    + eapply IH; eauto.
Qed.

(** the iteration from [it] on *)
Inductive later (F : family D) (d : D) : option (f_item D F) -> f_item D F -> Prop :=
| lat_here it i : f_next D F d it = Some i -> later F d it i
| lat_more it i j : f_next D F d it = Some i -> later F d (Some i) j -> later F d it j.
Lemma visited_later F d i : visited F d i -> later F d None i.
Proof.
  assert (G : forall it i j, later F d it i -> f_next D F d (Some i) = Some j -> later F d it j).
  { intros it a b L E. induction L; [eapply lat_more; eauto; now apply lat_here|eapply lat_more; eauto]. }
  induction 1; [now apply lat_here|eauto].
Qed.
Lemma forLoop_quiet F fuel : forall it more d k b d' k', (forall j, done j = false) ->
  forLoop D done F fuel it more d k = Some (b, d', k') -> (more = true -> b = true) /\
  (b = false -> d' = d /\ forall i, later F d it i -> f_check D F d i = false).
Proof.
  induction fuel as [|f IH]; intros it more d k b d' k' ND E; cbn [forLoop] in E; [discriminate|].
  destruct (f_next D F d it) as [i|] eqn:N.
  - rewrite ND, andb_false_r in E. cbn [orb] in E. destruct (f_check D F d i) eqn:C; cbn [negb] in E.
    + apply IH in E as [A B]; auto. split; [auto|]. intros Q. rewrite A in Q; [discriminate|reflexivity].
    + apply IH in E as [A B]; auto. split; [auto|]. intros Q. destruct (B Q) as [-> H]. split; auto.
      intros j L. inversion L as [? ? N'|? ? ? N' L']; subst; rewrite N in N'; injection N' as <-; auto.
  - injection E as <- <- <-. split; auto. intros _. split; auto. intros j L.
    inversion L as [? ? N'|? ? ? N' L']; subst; rewrite N in N'; discriminate.
Qed.

Lemma while_sound fuel body s : sound body -> sound (whileLoop D done fuel body s).
Proof.
  intros S. revert s. induction fuel as [|f IH]; intros s d k b d' k' E; cbn [whileLoop] in E; [discriminate|].
  destruct (done k); [injection E as <- <- <-; apply rsteps_refl|].
  destruct (body d (Datatypes.S k)) as [[[m d1] k1]|] eqn:B; [|discriminate]. apply S in B. destruct m.
  - apply IH in E. eapply rsteps_trans; eauto.
  - injection E as <- <- <-. exact B.
Qed.
Lemma while_fixes fuel body P : quiet body P -> forall s d k b d' k', (forall j, done j = false) ->
  whileLoop D done fuel body s d k = Some (b, d', k') -> P d' /\ (s = true -> b = true) /\ (b = false -> d' = d).
Proof.
  intros Q. induction fuel as [|f IH]; intros s d k b d' k' ND E; cbn [whileLoop] in E; [discriminate|]. rewrite ND in E.
  destruct (body d (Datatypes.S k)) as [[[m d1] k1]|] eqn:B; [|discriminate]. destruct m.
  - apply IH in E as (A1 & A2 & A3); auto. repeat split; auto. intros F. rewrite A2 in F; [discriminate|reflexivity].
  - injection E as <- <- <-. destruct (Q _ _ _ _ _ ND B eq_refl) as [A ->]. auto.
Qed.
Lemma or_sound a b : sound a -> sound b -> sound (orElse D a b).
Proof.
  intros A B d k c d' k' E. unfold orElse in E. destruct (a d k) as [[[m1 d1] k1]|] eqn:E1; [|discriminate].
  destruct (b d1 k1) as [[[m2 d2] k2]|] eqn:E2; [|discriminate]. injection E as <- <- <-. eapply rsteps_trans; eauto.
Qed.
Lemma or_quiet a b P Q : quiet a P -> quiet b Q -> quiet (orElse D a b) (fun d => P d /\ Q d).
Proof.
  intros A B d k c d' k' ND E F. unfold orElse in E. destruct (a d k) as [[[m1 d1] k1]|] eqn:E1; [|discriminate].
  destruct (b d1 k1) as [[[m2 d2] k2]|] eqn:E2; [|discriminate]. injection E as <- <- <-. apply orb_false_iff in F as [-> ->].
  destruct (A _ _ _ _ _ ND E1 eq_refl) as [P1 ->]. destruct (B _ _ _ _ _ ND E2 eq_refl) as [Q1 ->]. auto.
Qed.
Lemma fixes_quiet a P : fixes a P -> quiet a P.
Proof. intros F d k b d' k' ND E Q. destruct (F _ _ _ _ _ ND E) as [A B]. auto. Qed.

Variable fuel : nat.
Lemma simplify_sound F : In F (families R) -> sound (simplify D done fuel F).
Proof. intros I. apply while_sound. now apply forLoop_sound. Qed.
Lemma simplify_fixes F : fixes (simplify D done fuel F) (fun d => exhausted d F).
Proof.
  intros d k b d' k' ND E. unfold simplify in E. apply (while_fixes _ _ (fun d => exhausted d F)) in E; auto.
  - destruct E as (A & _ & B). split; [exact A|exact B].
  - clear. intros d k b d' k' ND E F0. apply forLoop_quiet in E as [_ B]; auto. destruct (B F0) as [-> H]. split; auto.
    intros i V. apply H. now apply visited_later.
Qed.

Lemma fam_in : In (r_id D R) (families R) /\ In (r_spider D R) (families R) /\ In (r_localComp D R) (families R) /\ In (r_pivotPauli D R) (families R) /\
  In (r_pivot D R) (families R) /\ In (r_pivotGadget D R) (families R) /\ In (r_gadget D R) (families R).
Proof. unfold families. cbn. tauto. Qed.

Definition interior_nf (d : D) : Prop := ((exhausted d (r_id D R) /\ exhausted d (r_spider D R)) /\ exhausted d (r_pivotPauli D R)) /\ exhausted d (r_localComp D R).
Lemma interior_sound : sound (interiorCliffordSimp D done R fuel).
Proof.
  destruct fam_in as (F1 & F2 & F3 & F4 & F5 & F6 & F7). intros d k b d' k' E. unfold interiorCliffordSimp in E.
  destruct (simplify D done fuel (r_spider D R) d k) as [[[s d1] k1]|] eqn:S1; [|discriminate].
  apply simplify_sound in S1; auto. apply while_sound in E; [eapply rsteps_trans; eauto|].
  repeat apply or_sound; now apply simplify_sound.
Qed.
Lemma interior_fixes : fixes (interiorCliffordSimp D done R fuel) interior_nf.
Proof.
  intros d k b d' k' ND E. unfold interiorCliffordSimp in E.
  destruct (simplify D done fuel (r_spider D R) d k) as [[[s d1] k1]|] eqn:S1; [|discriminate].
  apply simplify_fixes in S1 as [_ S1]; auto. apply (while_fixes _ _ interior_nf) in E; auto.
  - destruct E as (A & B & C). split; [exact A|]. intros Q. rewrite (C Q). apply S1. destruct s; auto. rewrite B in Q; [discriminate|reflexivity].
  - repeat apply or_quiet; apply fixes_quiet, simplify_fixes.
Qed.
Definition clifford_nf (d : D) : Prop := interior_nf d /\ exhausted d (r_pivot D R).
Lemma clifford_sound : sound (cliffordSimp D done R fuel).
Proof. destruct fam_in as (F1 & F2 & F3 & F4 & F5 & F6 & F7). apply while_sound, or_sound; [apply interior_sound|now apply simplify_sound]. Qed.
Lemma clifford_fixes : fixes (cliffordSimp D done R fuel) clifford_nf.
Proof.
  intros d k b d' k' ND E. unfold cliffordSimp in E. apply (while_fixes _ _ clifford_nf) in E; auto.
  - destruct E as (A & _ & B). split; [exact A|exact B].
  - apply or_quiet; apply fixes_quiet; [apply interior_fixes|apply simplify_fixes].
Qed.

Lemma full_sound : sound (fullReduce D done R fuel).
Proof.
  destruct fam_in as (F1 & F2 & F3 & F4 & F5 & F6 & F7). intros d k b d' k' E. unfold fullReduce in E.
  set (d0 := if done k then d else r_toGraphlike D R d) in E.
  assert (S0 : rsteps R d d0). { unfold d0. destruct (done k); [apply rsteps_refl|apply rsteps_one, rs_graphlike]. }
  destruct (interiorCliffordSimp D done R fuel d0 (S k)) as [[[s d1] k1]|] eqn:S1; [|discriminate]. apply interior_sound in S1.
  destruct (whileLoop _ _ _ _ s d1 k1) as [[[s2 d2] k2]|] eqn:S2; [|discriminate]. injection E as <- <- <-.
  apply while_sound in S2; [|repeat apply or_sound; try apply clifford_sound; try apply interior_sound; now apply simplify_sound].
  eapply rsteps_trans; [exact S0|]. eapply rsteps_trans; [exact S1|]. eapply rsteps_trans; [exact S2|].
  destruct (done k2); [apply rsteps_refl|apply rsteps_one, rs_remove].
Qed.
Lemma full_exhaustive d k b d' k' : (forall j, done j = false) -> fullReduce D done R fuel d k = Some (b, d', k') ->
  exists d2, d' = r_removeDisconnected D R d2 /\ forall F, In F (families R) -> exhausted d2 F.
Proof.
  intros ND E. unfold fullReduce in E. rewrite ND in E.
  destruct (interiorCliffordSimp D done R fuel (r_toGraphlike D R d) (S k)) as [[[s d1] k1]|] eqn:S1; [|discriminate].
  destruct (whileLoop _ _ _ _ s d1 k1) as [[[s2 d2] k2]|] eqn:S2; [|discriminate]. rewrite ND in E. injection E as <- <- <-.
  eapply while_fixes in S2; eauto.
  2:{ repeat apply or_quiet; apply fixes_quiet; [apply clifford_fixes|apply simplify_fixes|apply interior_fixes|apply simplify_fixes]. }
  destruct S2 as ((((((((A1 & A2) & A3) & A4) & A5) & A6) & _) & A7) & _). exists d2. split; auto.
  intros F [<-|[<-|[<-|[<-|[<-|[<-|[<-|[]]]]]]]]; auto.
Qed.

Lemma approx_sound : sound (fullReduceApproximate D done R fuel).
Proof.
  intros d k b d' k' E. unfold fullReduceApproximate in E.
  destruct (fullReduce D done R fuel d k) as [[[s d1] k1]|] eqn:S1; [|discriminate]. apply full_sound in S1.
  apply while_sound in E; [eapply rsteps_trans; eauto|]. clear. intros d k b d' k' E. apply full_sound in E.
  eapply rsteps_trans; [|exact E]. apply rsteps_one, rs_approx.
Qed.
Lemma approx_exhaustive d k b d' k' : (forall j, done j = false) -> fullReduceApproximate D done R fuel d k = Some (b, d', k') ->
  exists d2, d' = r_removeDisconnected D R d2 /\ forall F, In F (families R) -> exhausted d2 F.
Proof.
  intros ND E. unfold fullReduceApproximate in E.
  destruct (fullReduce D done R fuel d k) as [[[s d1] k1]|] eqn:S1; [|discriminate].
  assert (G : forall n s d k, whileLoop D done n (fun d k => fullReduce D done R fuel (r_approximate D R d) k) s d k = Some (b, d', k') ->
    exists d2, d' = r_removeDisconnected D R d2 /\ forall F, In F (families R) -> exhausted d2 F).
  { clear - ND. induction n as [|n IH]; intros s d k E; cbn [whileLoop] in E; [discriminate|]. rewrite ND in E.
    destruct (fullReduce D done R fuel (r_approximate D R d) (S k)) as [[[m d1] k1]|] eqn:S1; [|discriminate]. destruct m.
    - eapply IH; eauto.
    - injection E as <- <- <-. eapply full_exhaustive; eauto. }
  eapply G; eauto.
Qed.
(** once the flag is set at the first read, nothing is done at all *)
Lemma approx_cancelled d : (forall j, done j = true) -> 0 < fuel ->
  exists b k, fullReduceApproximate D done R fuel d 0 = Some (b, d, k) /\ b = false.
Proof.
  intros AD L. unfold fullReduceApproximate, fullReduce, interiorCliffordSimp, simplify. destruct fuel as [|f]; [lia|].
  cbn [whileLoop]. repeat (rewrite AD; cbn [whileLoop]). eexists. eexists. split; reflexivity.
Qed.
End Reduce.
