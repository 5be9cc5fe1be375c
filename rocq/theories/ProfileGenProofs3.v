(** Generated profiles: predicted costs, and the scheme that uses the profile. *)
From Coq Require Import String Ascii List Bool Arith ZArith NArith QArith Qabs Lia.
From Verif Require Import PyConfig PyProfile PyProfileProofs ProfileGen ProfileGenSpec ProfileGenProofs ProfileGenProofs2.
From Verif Require Import Schemes SchemesSpec SchemesProofs SchemesProofs2 SchemesProofs3.
Import ListNotations.
Local Open Scope string_scope.

Lemma coefficients_cases solve s n : (forall mat f c, solve mat f = Some c -> length c = length f) ->
  let c := coefficients solve s n in
  (c = [-1; 2]%Q /\ forall o, (1 <= o <= n)%nat -> check_recurrence solve s o = None) \/
  (exists o, (1 <= o <= n)%nat /\ length c = o /\ check_recurrence solve s o = Some c /\ forall o', (1 <= o' < o)%nat -> check_recurrence solve s o' = None).
Proof.
  intros HS. unfold coefficients. assert (F := first_recurrence_first solve s (seq 1 n)). destruct (first_recurrence solve s (seq 1 n)) as [c|]; cbv zeta.
  - right. destruct F as (pre & o & post & Q & H1 & H2). exists o.
    assert (Io : In o (seq 1 n)) by (rewrite Q; apply in_or_app; right; left; reflexivity). apply in_seq in Io. split; [lia|].
    split; [now apply check_recurrence_order in H1|]. split; [exact H1|].
    intros o' B. apply H2. assert (I : In o' (seq 1 n)) by (apply in_seq; lia). rewrite Q in I. apply in_app_or in I as [I|I]; auto. exfalso.
    assert (N : nth (length pre) (seq 1 n) 0%nat = o) by (rewrite Q, app_nth2, Nat.sub_diag by lia; reflexivity).
    assert (Lp : (length pre < n)%nat). { rewrite <- (seq_length n 1), Q, app_length. cbn [length]. lia. }
    rewrite seq_nth in N by auto. destruct (In_nth _ _ 0%nat I) as (k & Lk & Nk).
    assert (N' : nth (length pre + k) (seq 1 n) 0%nat = o') by (rewrite Q, app_nth2, Nat.add_comm, Nat.add_sub by lia; exact Nk).
    rewrite seq_nth in N'; [lia|]. rewrite <- (seq_length n 1), Q, app_length. lia.
  - left. split; auto. intros o B. apply F. apply in_seq. lia.
Qed.

Section Pred.
Variable cost : Z -> call -> Z.
Variable solve : list (list Z) -> list Z -> option (list Q).
Hypothesis HS : forall mat f c, solve mat f = Some c -> length c = length f.

Lemma predicted level m d g : profile_data cost solve level m = Some d -> g = "p" \/ g = "x" ->
  let s := skipn 5 (sorted (costs cost level m g)) in
  length s = 7%nat /\
  exists c, ((c = [-1; 2]%Q /\ forall o, (1 <= o <= 3)%nat -> check_recurrence solve s o = None) \/
             (exists o, (1 <= o <= 3)%nat /\ length c = o /\ check_recurrence solve s o = Some c /\ forall o', (1 <= o' < o)%nat -> check_recurrence solve s o' = None)) /\
    exists ts : list Z, (length ts <= 116)%nat /\
      (forall j, (j < length ts)%nat -> dget d (g, (12 + j)%nat) = Some (nth j ts 0%Z) /\
         nth j ts 0%Z = round_even (sumprod c (skipn (7 + j - length c) (s ++ firstn j ts)))) /\
      (forall j, (length ts <= j)%nat -> dget d (g, (12 + j)%nat) = None) /\
      ((length ts < 116)%nat -> 1000000 <= inject_Z (round_even (sumprod c (skipn (7 + length ts - length c) (s ++ ts))))).
Proof.
  intros E B s. assert (L7 : length s = 7%nat).
  { subst s. rewrite skipn_length, (Permutation.Permutation_length (sorted_perm _)). unfold costs. rewrite map_length, seq_length. reflexivity. }
  split; [exact L7|]. destruct (predicted_kept cost solve level m d g E B) as (d0 & d' & C & F & K & D0).
  assert (Q : sequence d0 g 5 = s) by (rewrite sequence_of, C; reflexivity). unfold find_continuation in F. cbv zeta in F. rewrite Q in F.
  exists (coefficients solve s 3). assert (CC := coefficients_cases solve s 3 HS). cbv zeta in CC. split; [exact CC|].
  assert (LC : (length (coefficients solve s 3) <= 3)%nat) by (destruct CC as [[-> _]|(o & O & LO & _)]; [cbn; lia|lia]).
  destruct (extend_values g 11 1000000 (coefficients solve s 3) _ _ s _ _ ltac:(rewrite L7; lia) F) as (ts & L & H1 & H2 & H3). exists ts. split; [exact L|]. split; [|split].
  - intros j J. destruct (H1 j J) as [V W]. rewrite K by lia. split.
    + rewrite <- V. do 2 f_equal. lia.
    + rewrite W at 1. unfold lastn. rewrite app_length, L7, firstn_length. do 3 f_equal. lia.
  - intros j J. rewrite K by lia. rewrite H3 by (intros j' J' X; injection X as X; lia). apply D0. lia.
  - intros J. specialize (H2 J). unfold lastn in H2. rewrite app_length, L7 in H2. exact H2.
Qed.
End Pred.

Lemma scheme_follows cost solve tyof join version level m : (forall mat f c, solve mat f = Some c -> length c = length f) ->
  one_line (join (generate_profile_name level m)) -> one_line version ->
  (forall g, In g profile_gates -> tyof g <> None) -> (forall g g', In g profile_gates -> In g' profile_gates -> tyof g = tyof g' -> g = g') ->
  exists content t, profile_file cost solve join version level m = Some content /\ read_profile tyof content = Some t /\
  forall (g : string) (c : call) (fusion : bool) (v : opview) (nc : nat), measured_circuit m g nc = Some c -> (0 <= cost level c < 2 ^ 64)%Z ->
    tyof g = Some (v_type v) -> v_nc v = N.of_nat nc -> fusion = false \/ v_used v <> 1%N ->
    gatecost_scheme t fusion v = (1, Z.to_N (cost level c))%N.
Proof.
  intros HS Hf Hv HT HI. unfold profile_file. destruct (profile_data cost solve level m) as [d|] eqn:E; [|exfalso; exact (profile_total cost solve level m HS E)].
  destruct (profile_read cost solve tyof level m d _ _ Hf Hv HT HI E) as (t & R & H1 & _). eexists. exists t. split; [reflexivity|]. split; [exact R|].
  intros g c fusion v nc M B T N F. assert (I : In (g, nc) mkeys) by (apply (measured_key m); congruence).
  assert (L : (nc <= 11)%nat) by (destruct (Nat.lt_ge_cases 11 nc) as [X|X]; [|exact X]; apply (measured_large cost level m g) in X; unfold measured in X; rewrite M in X; discriminate X).
  assert (D : dget d (g, nc) = Some (cost level c)) by (rewrite (profile_small cost solve level m d g nc E L); unfold measured; now rewrite M).
  assert (G : In g profile_gates) by exact (profile_names cost solve level m d g nc _ E D).
  assert (K := H1 g (v_type v) nc G T). rewrite D, <- N in K. unfold cost_read in K.
  destruct (Z.ltb_spec (Z.abs (cost level c)) (2 ^ 64)); [|lia]. rewrite Z.mod_small in K by lia.
  unfold gatecost_scheme. destruct t as [|e t]; [discriminate K|]. rewrite K. destruct F as [->|F]; [reflexivity|]. apply N.eqb_neq in F. now rewrite F, andb_false_r.
Qed.
