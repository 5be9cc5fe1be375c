From Coq Require Import List Bool Arith Lia Relations.
From Verif Require Import Criterion Perm PermSpec ZX ZXSpec ZXProofs.
Import ListNotations.

(** ** a set flag stops everything that is started afterwards *)
Section Cancel.
Context {D : Type} (done : nat -> bool) (R : rules D) (fuel : nat).
Hypothesis mono : forall k, done k = true -> done (S k) = true.
Hypothesis fp : 0 < fuel.

Lemma mono_le j k : done k = true -> k <= j -> done j = true.
Proof. intros H L. induction L; auto. Qed.
Definition idle (a : act D) : Prop := forall d k, done k = true -> exists k', k < k' /\ a d k = Some (false, d, k').
Lemma while_idle body d k s : done k = true -> whileLoop D done fuel body s d k = Some (s, d, S k).
Proof. intros H. destruct fuel; [lia|]. cbn. now rewrite H. Qed.
Lemma simplify_idle F : idle (simplify D done fuel F).
Proof. intros d k H. exists (S k). split; [lia|]. unfold simplify. now apply while_idle. Qed.
Lemma interior_idle : idle (interiorCliffordSimp D done R fuel).
Proof.
  intros d k H. unfold interiorCliffordSimp. destruct (simplify_idle (r_spider D R) d k H) as (k1 & L & ->).
  rewrite while_idle by (apply mono_le with k; auto; lia). exists (S k1). split; [lia|reflexivity].
Qed.
Lemma clifford_idle : idle (cliffordSimp D done R fuel).
Proof. intros d k H. exists (S k). split; [lia|]. unfold cliffordSimp. now apply while_idle. Qed.
Lemma full_idle : idle (fullReduce D done R fuel).
Proof.
  intros d k H. unfold fullReduce. rewrite H. destruct (interior_idle d (S k)) as (k1 & L & ->). { now apply mono. }
  rewrite while_idle by (apply mono_le with k; auto; lia). rewrite (mono_le (S k1) k H) by lia. exists (S (S k1)). split; [lia|reflexivity].
Qed.
Lemma approx_idle : idle (fullReduceApproximate D done R fuel).
Proof.
  intros d k H. unfold fullReduceApproximate. destruct (full_idle d k H) as (k1 & L & ->).
  rewrite while_idle by (apply mono_le with k; auto; lia). exists (S k1). split; [lia|reflexivity].
Qed.
End Cancel.

(** ** termination, if rewriting terminates *)
Section Term.
Context {D : Type} (done : nat -> bool) (R : rules D).
Variables (mu : D -> nat) (d0 : D) (B fuel : nat).
Hypothesis T : rewriting_terminates R mu B d0.
Hypothesis Fuel : B < fuel /\ mu d0 + 2 <= fuel.

Definition good (a : act D) : Prop := forall d k, mu d <= mu d0 -> exists b d' k', a d k = Some (b, d', k') /\ mu d' <= mu d /\ (b = true -> mu d' < mu d).

Lemma for_good F : In F (families R) -> good (forLoop D done F fuel None false).
Proof.
  intros I. destruct T as (Tr & Ti & _). destruct (Ti F I) as (rank & R1 & R2 & R3).
  assert (G : forall n it more d k, mu d <= mu d0 -> rank d it < n ->
    exists b d' k', forLoop D done F n it more d k = Some (b, d', k') /\ mu d' <= mu d /\ (b = true -> more = true \/ mu d' < mu d)).
  { induction n as [|n IH]; intros it more d k M L; [lia|]. cbn [forLoop].
    destruct (f_next D F d it) as [i|] eqn:N.
    - assert (L' : rank d (Some i) < rank d it) by now apply R1.
      destruct (_ || negb (f_check D F d i)) eqn:Ck.
      + apply IH; auto. lia.
      + apply orb_false_iff in Ck as [_ Ck]. apply negb_false_iff in Ck.
        assert (Dm : mu (f_apply D F d i) < mu d). { apply Tr. exists F, i. auto. }
        destruct (IH (Some i) true (f_apply D F d i) (if f_polls D F then S k else k)) as (b & d' & k' & E & M' & Bt); [lia| |].
        { specialize (R2 d i). lia. }
        exists b, d', k'. split; [exact E|]. split; [lia|]. intros _. right. lia.
    - exists more, d, k. auto. }
  intros d k M. destruct (G fuel None false d k M) as (b & d' & k' & E & M' & Bt).
  { specialize (R3 d None M). lia. }
  exists b, d', k'. repeat split; auto. intros ->. destruct (Bt eq_refl); auto. discriminate.
Qed.
Lemma while_good body : good body -> forall s d k, mu d <= mu d0 -> exists b d' k', whileLoop D done fuel body s d k = Some (b, d', k') /\
  mu d' <= mu d /\ (b = true -> s = true \/ mu d' < mu d).
Proof.
  intros Gb. assert (G : forall n s d k, mu d <= mu d0 -> mu d + 1 <= n -> exists b d' k', whileLoop D done n body s d k = Some (b, d', k') /\
    mu d' <= mu d /\ (b = true -> s = true \/ mu d' < mu d)).
  { induction n as [|n IH]; intros s d k M L; [lia|]. cbn [whileLoop]. destruct (done k).
    - exists s, d, (S k). auto.
    - destruct (Gb d (S k) M) as (b & d1 & k1 & E & M1 & Bt). rewrite E. destruct b.
      + specialize (Bt eq_refl). destruct (IH true d1 k1) as (b & d' & k' & E' & M' & _); [lia|lia|].
        exists b, d', k'. split; [exact E'|]. split; [lia|]. intros _. right. lia.
      + exists s, d1, k1. auto. }
  intros s d k M. apply G; auto. lia.
Qed.
Lemma or_good a b : good a -> good b -> good (orElse D a b).
Proof.
  intros Ga Gb d k M. unfold orElse. destruct (Ga d k M) as (b1 & d1 & k1 & -> & M1 & B1).
  destruct (Gb d1 k1) as (b2 & d2 & k2 & -> & M2 & B2); [lia|]. exists (b1 || b2), d2, k2. split; auto. split; [lia|].
  intros H. apply orb_true_iff in H as [->| ->]; [specialize (B1 eq_refl)|specialize (B2 eq_refl)]; lia.
Qed.
Lemma while_false_good body : good body -> good (whileLoop D done fuel body false).
Proof.
  intros Gb d k M. destruct (while_good body Gb false d k M) as (b & d' & k' & E & M' & Bt). exists b, d', k'. repeat split; auto.
  intros ->. destruct (Bt eq_refl); auto. discriminate.
Qed.
Lemma simplify_good F : In F (families R) -> good (simplify D done fuel F).
Proof. intros I. apply while_false_good. now apply for_good. Qed.
Lemma interior_good : good (interiorCliffordSimp D done R fuel).
Proof.
  destruct (@fam_in D done R fuel) as (I1 & I2 & I3 & I4 & I5 & I6 & I7).
  intros d k M. unfold interiorCliffordSimp. destruct (simplify_good _ I2 d k M) as (s & d1 & k1 & -> & M1 & B1).
  edestruct (while_good) as (b & d' & k' & E & M' & Bt); [|shelve|rewrite E; exists b, d', k'; split; [reflexivity|]].
  { repeat apply or_good; apply simplify_good; eauto. }
  split; [lia|]. intros ->. destruct (Bt eq_refl) as [->|]; [specialize (B1 eq_refl)|]; lia.
  Unshelve. lia.
Qed.
Lemma clifford_good : good (cliffordSimp D done R fuel).
Proof.
  destruct (@fam_in D done R fuel) as (I1 & I2 & I3 & I4 & I5 & I6 & I7).
  apply while_false_good. apply or_good; [apply interior_good|now apply simplify_good].
Qed.
Lemma full_good : good (fullReduce D done R fuel).
Proof.
  destruct (@fam_in D done R fuel) as (I1 & I2 & I3 & I4 & I5 & I6 & I7). destruct T as (_ & _ & Tg & Td & Ta).
  intros d k M. unfold fullReduce. set (d0' := if done k then d else r_toGraphlike D R d).
  assert (M0 : mu d0' <= mu d) by (unfold d0'; destruct (done k); auto).
  destruct (interior_good d0' (S k)) as (s & d1 & k1 & -> & M1 & B1); [lia|].
  edestruct (while_good) as (b & d' & k' & E & M' & Bt); [|shelve|rewrite E].
  { repeat apply or_good; [apply clifford_good|apply simplify_good; auto|apply interior_good|apply simplify_good; auto]. }
  exists b. eexists. eexists. split; [reflexivity|].
  assert (M2 : mu (if done k' then d' else r_removeDisconnected D R d') <= mu d') by (destruct (done k'); auto).
  split; [lia|]. intros ->. destruct (Bt eq_refl) as [->|]; [specialize (B1 eq_refl)|]; lia.
  Unshelve. lia.
Qed.
Lemma approx_good : exists b d' k', fullReduceApproximate D done R fuel d0 0 = Some (b, d', k').
Proof.
  destruct T as (_ & _ & Tg & Td & Ta). unfold fullReduceApproximate.
  destruct (full_good d0 0 (le_n _)) as (s & d1 & k1 & -> & M1 & B1).
  edestruct while_good as (b & d' & k' & E & _); [|shelve|rewrite E; eauto].
  intros d k M. destruct (full_good (r_approximate D R d) k) as (b & d2 & k2 & E & M2 & B2). { specialize (Ta d). lia. }
  exists b, d2, k2. split; auto. specialize (Ta d). split; [lia|]. intros H. specialize (B2 H). lia.
  Unshelve. lia.
Qed.
End Term.

(** an iteration under way when the flag is set *)
Lemma forLoop_idle {D : Type} (done : nat -> bool) (F : family D) fuel : (forall j, done j = true -> done (S j) = true) -> f_polls D F = true ->
  forall it more d k b d' k', done k = true -> forLoop D done F fuel it more d k = Some (b, d', k') -> b = more /\ d' = d.
Proof.
  intros M P. induction fuel as [|f IH]; intros it more d k b d' k' H E; cbn [forLoop] in E; [discriminate|].
  destruct (f_next D F d it) as [i|]; [|injection E as <- <- <-; auto].
  rewrite P, H in E. cbn [andb orb] in E. apply (IH _ _ _ _ _ _ _ (M _ H) E).
Qed.
