(** Blocks of events of one thread. *)
From Coq Require Import List Bool Arith Lia.
From Verif Require Import Trace TraceProofs.
Import ListNotations.

Section Block.
Context {L : Type}.
Implicit Types (tr : trace L).
Notation blk t l := (map (@pair nat (what L) t) l).

Lemma block_len t (l : list (what L)) : length (blk t l) = length l.
Proof. apply map_length. Qed.

Lemma known_self tr t w : known (clk (tr ++ [(t, w)])) t (length tr) = true.
Proof. rewrite clk_snoc. cbn. rewrite Nat.eqb_refl, clk_len, Nat.eqb_refl. destruct (known _ _ _); reflexivity. Qed.

(** a thread knows its own events *)
Lemma known_own tr p t w : nth_error tr p = Some (t, w) -> known (clk tr) t p = true.
Proof.
  intros H. destruct (firstn_le_app tr (S p) (S p + length tr)) as (l' & E); [lia|]. rewrite firstn_all2 in E by lia.
  rewrite E. apply known_mono. rewrite (firstn_S_nth _ _ _ H).
  pose proof (known_self (firstn p tr) t w) as G. rewrite firstn_length_le in G by (apply nth_lt in H; lia). exact G.
Qed.

Lemma known_lock tr t m p pre : In (Lock m) pre -> released (clk tr) m p = true -> known (clk (tr ++ blk t pre)) t p = true.
Proof.
  intros H HR. apply in_split in H. destruct H as (a & b & ->). rewrite map_app. cbn [map].
  rewrite (app_assoc tr).
  replace ((tr ++ blk t a) ++ (t, Lock m) :: blk t b) with (((tr ++ blk t a) ++ [(t, Lock m)]) ++ blk t b) by (rewrite <- app_assoc; reflexivity).
  apply known_mono. rewrite clk_snoc. cbn. rewrite Nat.eqb_refl. apply orb_true_iff. right. apply released_mono, HR.
Qed.
Lemma known_join tr t u p pre : In (Join u) pre -> known (clk tr) u p = true -> known (clk (tr ++ blk t pre)) t p = true.
Proof.
  intros H HR. apply in_split in H. destruct H as (a & b & ->). rewrite map_app. cbn [map].
  rewrite (app_assoc tr).
  replace ((tr ++ blk t a) ++ (t, Join u) :: blk t b) with (((tr ++ blk t a) ++ [(t, Join u)]) ++ blk t b) by (rewrite <- app_assoc; reflexivity).
  apply known_mono. rewrite clk_snoc. cbn. rewrite Nat.eqb_refl. apply orb_true_iff. right. apply known_mono, HR.
Qed.
Lemma known_fork tr t u p pre post : known (clk (tr ++ blk t pre)) t p = true -> known (clk (tr ++ blk t (pre ++ Fork u :: post))) u p = true.
Proof.
  intros HR. rewrite map_app. cbn [map]. rewrite (app_assoc tr).
  replace ((tr ++ blk t pre) ++ (t, Fork u) :: blk t post) with (((tr ++ blk t pre) ++ [(t, Fork u)]) ++ blk t post) by (rewrite <- app_assoc; reflexivity).
  apply known_mono. rewrite clk_snoc. cbn. destruct (u =? t) eqn:E.
  - apply Nat.eqb_eq in E. subst u. rewrite HR. reflexivity.
  - rewrite Nat.eqb_refl, HR. cbn. destruct (known _ u p); reflexivity.
Qed.
Lemma released_unlock tr t m p pre post : known (clk (tr ++ blk t pre)) t p = true ->
  released (clk (tr ++ blk t (pre ++ Unlock m :: post))) m p = true.
Proof.
  intros HR. rewrite map_app. cbn [map]. rewrite (app_assoc tr).
  replace ((tr ++ blk t pre) ++ (t, Unlock m) :: blk t post) with (((tr ++ blk t pre) ++ [(t, Unlock m)]) ++ blk t post) by (rewrite <- app_assoc; reflexivity).
  apply released_mono. rewrite clk_snoc. cbn. rewrite Nat.eqb_refl, HR. cbn. destruct (released _ _ _); reflexivity.
Qed.

(** an unknown position stays unknown to a thread that receives nothing *)
Lemma block_unknown tr t l p : p < length tr ->
  (forall u, u <> t -> known (clk tr) u p = false) -> (forall m, released (clk tr) m p = false) ->
  (forall u, ~ In (Fork u) l) -> (forall m, ~ In (Unlock m) l) ->
  (forall u, u <> t -> known (clk (tr ++ blk t l)) u p = false) /\ (forall m, released (clk (tr ++ blk t l)) m p = false).
Proof.
  intros Hp HK HR. induction l as [|w l IH] using rev_ind; intros HF HU; [cbn; rewrite app_nil_r; split; assumption|].
  destruct IH as [IK IR].
  { intros u Hu. apply (HF u), in_or_app. left. exact Hu. }
  { intros u Hu. apply (HU u), in_or_app. left. exact Hu. }
  rewrite map_app. cbn [map]. rewrite app_assoc, clk_snoc. cbn. split.
  - intros u Hu. destruct (u =? t) eqn:E; [apply Nat.eqb_eq in E; contradiction|]. rewrite IK by assumption. cbn.
    destruct w; try reflexivity. exfalso. apply (HF t0), in_or_app. right. left. reflexivity.
  - intros m. rewrite IR. cbn. destruct w; try reflexivity. exfalso. apply (HU m0), in_or_app. right. left. reflexivity.
Qed.
(** the same for a position that only thread [z] knows, and a block of another thread *)
Lemma block_unknown_other tr z t l p : p < length tr -> t <> z ->
  (forall u, u <> z -> known (clk tr) u p = false) -> (forall m, released (clk tr) m p = false) ->
  ~ In (Join z) l ->
  (forall u, u <> z -> known (clk (tr ++ blk t l)) u p = false) /\ (forall m, released (clk (tr ++ blk t l)) m p = false).
Proof.
  intros Hp Htz HK HR. induction l as [|w l IH] using rev_ind; intros HJ; [cbn; rewrite app_nil_r; split; assumption|].
  destruct IH as [IK IR].
  { intros Hu. apply HJ, in_or_app. left. exact Hu. }
  assert (w <> Join z) as HW by (intros ->; apply HJ, in_or_app; right; left; reflexivity).
  rewrite map_app. cbn [map]. rewrite app_assoc, clk_snoc. cbn. rewrite clk_len, app_length.
  assert (p =? length tr + length (blk t l) = false) as E1 by (apply Nat.eqb_neq; lia).
  assert (MINE : known (clk (tr ++ blk t l)) t p || (p =? length tr + length (blk t l)) ||
     match w with Join u0 => known (clk (tr ++ blk t l)) u0 p | Lock m => released (clk (tr ++ blk t l)) m p | _ => false end = false).
  { rewrite IK, E1 by assumption. cbn. destruct w; try reflexivity; [|apply IR]. apply IK. congruence. }
  rewrite MINE. split.
  - intros u Hu. destruct (u =? t); [reflexivity|]. rewrite IK by assumption. cbn. destruct w; try reflexivity. apply andb_false_r.
  - intros m. rewrite IR. cbn. destruct w; try reflexivity. apply andb_false_r.
Qed.

(** races after a block of thread [t] *)
Lemma race_on_block tr t l x i j : race_on (tr ++ blk t l) x i j ->
  race_on tr x i j \/
  (exists pre post b u a, l = pre ++ Acc b x :: post /\ j = length tr + length pre /\ i < length tr /\
     nth_error tr i = Some (u, Acc a x) /\ u <> t /\ conflicting a b /\ known (clk (tr ++ blk t pre)) t i = false).
Proof.
  induction l as [|w l IH] using rev_ind; intros H; [left; cbn in H; rewrite app_nil_r in H; exact H|].
  rewrite map_app in H. cbn [map] in H. rewrite app_assoc in H. apply race_on_snoc in H.
  destruct H as [H|(-> & Hi & u & a & b & H1 & H2 & H3 & H4 & H5)].
  - destruct (IH H) as [H'|(pre & post & b & u & a & -> & H1)]; [left; exact H'|].
    right. exists pre, (post ++ [w]), b, u, a. split; [rewrite <- app_assoc; reflexivity|exact H1].
  - right. cbn in H2, H3, H5. injection H2 as ->. exists l, [], b, u, a. split; [reflexivity|].
    rewrite app_length, block_len in *. split; [reflexivity|].
    destruct (Nat.lt_ge_cases i (length tr)) as [Hl|Hg].
    + rewrite nth_error_app1 in H1 by assumption. repeat split; assumption.
    + exfalso. rewrite nth_error_app2 in H1 by assumption. apply nth_error_In in H1. apply in_map_iff in H1.
      destruct H1 as (y & E & _). injection E as -> _. contradiction.
Qed.
End Block.
