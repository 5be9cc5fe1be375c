(** Parameterised circuits: C45, C46. *)
From Coq Require Import List Bool QArith Lia Lqa.
From Verif Require Import Criterion PyParam PyParamSpec PyParamProofs.
Import ListNotations.

(** C45. A verdict of equivalence is the ZX checker's, or all instantiated checks were made, none refuted, and the verdict is that of the random
    instantiation. *)
Theorem C45_equivalence_justified e timeout n r log : check_parameterized e timeout n = (r, log) -> consideredEquivalent (r_eq r) = true ->
  (r = zx e /\ log = []) \/ (log = all_checks e n /\ r_eq r = r_eq (random e) /\ forall x, In x log -> ~ refutes x).
Proof.
  intros E C. destruct (ending_ok _ _ _ _ _ E) as [Z R L|Z L N I|m Z Lm L I R D|Z L I R D A].
  - now left.
  - rewrite N in C. discriminate.
  - destruct D as [[D _]|[D _]]; rewrite D in C; discriminate.
  - right. destruct D as [D|D]; [|rewrite D in C; discriminate]. split; auto. split; auto.
    intros x Ix. destruct (in_dec (fun a b : presult => ltac:(repeat decide equality)) x (removelast log)) as [J|J]; [now apply R|].
    rewrite L in Ix, J. unfold all_checks in *. rewrite app_comm_cons in *. rewrite removelast_last in J. apply in_app_iff in Ix as [Ix|[<-|[]]]; [tauto|].
    unfold refutes. rewrite <- D. intros Q. rewrite Q in C. discriminate.
Qed.
Print Assumptions C45_equivalence_justified.
(** 'Not equivalent' is the verdict of the last check made, and no earlier one gave it. *)
Theorem C45_non_equivalence_justified e timeout n r log : check_parameterized e timeout n = (r, log) -> r_eq r = NotEquivalent ->
  exists log' x, log = log' ++ [x] /\ refutes x /\ forall y, In y log' -> ~ refutes y.
Proof.
  intros E C. destruct (ending_ok _ _ _ _ _ E) as [Z R L|Z L N I|m Z Lm L I R D|Z L I R D A].
  - subst r. rewrite C in Z. discriminate.
  - congruence.
  - destruct D as [[D _]|(_ & D & _)]; [congruence|]. destruct (@exists_last _ log) as (l' & a & El); [rewrite L; discriminate|].
    exists l', a. rewrite El, last_last in D. rewrite El, removelast_last in R. auto.
  - destruct D as [D|D]; [|congruence]. exists (zero e :: map (phase e) (seq 0 n)), (random e). split; [exact L|]. split; [unfold refutes; congruence|].
    rewrite L in R. unfold all_checks in R. rewrite app_comm_cons, removelast_last in R. exact R.
Qed.
Print Assumptions C45_non_equivalence_justified.
(** The checks made are the first ones of the fixed sequence (zero, additional, random), at most n + 2. *)
Theorem C45_checks_made e timeout n r log : check_parameterized e timeout n = (r, log) -> prefix log (all_checks e n) /\ (length log <= n + 2)%nat.
Proof.
  intros E. assert (P : prefix log (all_checks e n)).
  { destruct (ending_ok _ _ _ _ _ E) as [Z R L|Z L N I|m Z Lm L I R D|Z L I R D A]; subst log; [now exists (all_checks e n)..| |exists []; now rewrite app_nil_r].
    unfold all_checks. exists (map (phase e) (seq m (n - m)) ++ [random e]). rewrite <- app_comm_cons, app_assoc, <- map_app, <- seq_app. now replace (m + (n - m))%nat with n by lia. }
  split; auto. destruct P as (l & P). assert (X : length (all_checks e n) = (n + 2)%nat) by (unfold all_checks; cbn; rewrite app_length, map_length, seq_length; cbn; lia).
  rewrite P, app_length in X. lia.
Qed.
Print Assumptions C45_checks_made.
(** The reported number of instantiations is the number of checks made, unless the time was up before the first one. *)
Theorem C45_reported_instantiations e timeout n r log : check_parameterized e timeout n = (r, log) -> log <> [] -> r_inst r = length log.
Proof.
  intros E NE. destruct (ending_ok _ _ _ _ _ E) as [Z R L|Z L N I|m Z Lm L I R D|Z L I R D A]; try congruence.
  - rewrite I, L. cbn. now rewrite map_length, seq_length.
  - rewrite I, L. unfold all_checks. cbn. rewrite app_length, map_length, seq_length. cbn. lia.
Qed.
Print Assumptions C45_reported_instantiations.
(** If the time is up before the first check, one instantiation is reported although none has been checked. *)
Definition slow : penv := let r := mkPResult NoInformation 5 0 0 0 0 in mkPEnv r 0 r (fun _ => 0) (fun _ => r) r.
Theorem C45_reported_instantiations_refuted :
  ~ (forall e timeout n r log, check_parameterized e timeout n = (r, log) -> consideredEquivalent (r_eq (zx e)) = false -> r_inst r = length log).
Proof. intros H. specialize (H slow 1 0%nat _ _ eq_refl eq_refl). vm_compute in H. discriminate. Qed.
Print Assumptions C45_reported_instantiations_refuted.
(** Without a timeout the flow is complete for the instantiations it makes: it reports 'not equivalent' iff one of them does, and the verdict of
    the random one otherwise. *)
Theorem C45_complete_without_timeout e n r log : consideredEquivalent (r_eq (zx e)) = false -> check_parameterized e 0 n = (r, log) ->
  (exists x, In x (all_checks e n) /\ refutes x) /\ r_eq r = NotEquivalent \/
  (forall x, In x (all_checks e n) -> ~ refutes x) /\ r_eq r = r_eq (random e) /\ log = all_checks e n.
Proof. exact (no_timeout e n r log). Qed.
Print Assumptions C45_complete_without_timeout.
(** The reported times and simulation counts are the sums over the ZX check and all instantiated checks, for every verdict other than a timeout. *)
Theorem C45_totals e timeout n r log : check_parameterized e timeout n = (r, log) -> log <> [] -> r_eq r <> NoInformation ->
  r_check r == r_check (zx e) + total r_check log /\ r_prep r == r_prep (zx e) + total r_prep log /\
  r_started r == r_started (zx e) + total r_started log /\ r_performed r == r_performed (zx e) + total r_performed log.
Proof.
  intros E NE NI. destruct (ending_ok _ _ _ _ _ E) as [Z R L|Z L N I|m Z Lm L I R D|Z L I R D A]; try congruence.
  - destruct D as [[D _]|(_ & _ & A)]; [congruence|exact A].
  - exact A.
Qed.
Print Assumptions C45_totals.
(** A configured timeout that the ZX check has exceeded stops the flow; but if it took exactly the configured time, the rest is 0, which means 'no
    timeout', and all checks are made. *)
Theorem C45_timeout_stops e timeout n : consideredEquivalent (r_eq (zx e)) = false -> 0 < timeout -> timeout < r_check (zx e) + r_prep (zx e) -> 0 <= zero_time e ->
  snd (check_parameterized e timeout n) = [].
Proof. exact (timeout_stops e timeout n). Qed.
Print Assumptions C45_timeout_stops.
Theorem C45_timeout_reached_stops_refuted :
  ~ (forall e timeout n, consideredEquivalent (r_eq (zx e)) = false -> 0 < timeout -> timeout <= r_check (zx e) + r_prep (zx e) -> 0 <= zero_time e ->
       snd (check_parameterized e timeout n) = []).
Proof.
  intros H. specialize (H slow 5 3%nat eq_refl). assert (X : snd (check_parameterized slow 5 3) = []) by (apply H; vm_compute; congruence).
  vm_compute in X. discriminate.
Qed.
Print Assumptions C45_timeout_reached_stops_refuted.
(** A refutation found by a check can be lost: a timeout noticed after it turns the verdict into 'no information'. *)
Theorem C45_refutation_kept_refuted :
  ~ (forall e timeout n r log, check_parameterized e timeout n = (r, log) -> (exists x, In x log /\ refutes x) -> r_eq r = NotEquivalent).
Proof.
  intros H.
  set (z := mkPResult NoInformation 1 0 0 0 0). set (f := mkPResult NotEquivalent 5 0 0 0 0).
  specialize (H (mkPEnv z 0 z (fun _ => 0) (fun _ => f) f) 3 1%nat _ _ eq_refl). vm_compute in H.
  assert (X : NoInformation = NotEquivalent) by (apply H; eexists; split; [right; left; reflexivity|reflexivity]). discriminate.
Qed.
Print Assumptions C45_refutation_kept_refuted.
Example C45_example : let ok := mkPResult Equivalent 1 1 4 4 0 in let z := mkPResult NoInformation 1 1 0 0 0 in
  let bad := mkPResult NotEquivalent 1 1 1 1 0 in
  fst (check_parameterized (mkPEnv z 0 ok (fun _ => 0) (fun i => if Nat.eqb i 2 then bad else ok) ok) 0 5) = mkPResult NotEquivalent 5 5 13 13 4 /\
  fst (check_parameterized (mkPEnv z 0 ok (fun _ => 0) (fun _ => ok) ok) 0 1) = mkPResult Equivalent 4 4 12 12 3.
Proof. vm_compute. split; reflexivity. Qed.

(** C46. An assignment solves the extracted system iff it makes all symbolic gate parameters zero; with phases added to the right-hand side, iff it
    gives every gate parameter its phase. *)
Theorem C46_zero n xs a : Forall (affine_below n) xs -> solves (equs n xs) (offsets xs) a <-> Forall (fun x => x_value x a == 0) xs.
Proof. exact (system_zero n xs a). Qed.
Print Assumptions C46_zero.
Theorem C46_phases n xs phases a : Forall (affine_below n) xs -> length phases = length xs ->
  solves (equs n xs) (map (fun p => fst p + snd p) (combine phases (offsets xs))) a <-> Forall2 (fun x v => x_value x a == v) xs phases.
Proof. exact (system_spec n xs phases a). Qed.
Print Assumptions C46_phases.
(** Hence, if the parameters can be chosen such that all gate parameters vanish, a least-squares solution (pinv: a solution whenever there is one)
    makes them vanish. *)
Theorem C46_zero_instantiation n xs (pinv : list (list Q) -> list Q -> nat -> Q) :
  (forall m b, (exists x, solves m b x) -> solves m b (pinv m b)) -> Forall (affine_below n) xs ->
  (exists a, Forall (fun x => x_value x a == 0) xs) -> Forall (fun x => x_value x (pinv (equs n xs) (offsets xs)) == 0) xs.
Proof. intros P F (a & H). apply system_zero with (n := n); auto. apply P. exists a. now apply system_zero. Qed.
Print Assumptions C46_zero_instantiation.
(** For expressions that are not affine the system is wrong. *)
Theorem C46_non_affine_refuted :
  ~ (forall n xs a, (forall x i, In x xs -> In i (x_params x) -> (i < n)%nat) -> solves (equs n xs) (offsets xs) a -> Forall (fun x => x_value x a == 0) xs).
Proof.
  intros H. set (x := mkExpr [0%nat] (fun a => a 0%nat * a 0%nat - 4)). specialize (H 1%nat [x] (fun _ => 4)).
  assert (F : Forall (fun x => x_value x (fun _ => 4) == 0) [x]).
  { apply H; [intros y i [<-|[]] [<-|[]]; lia|]. repeat constructor. }
  inversion F as [|? ? V _]. vm_compute in V. discriminate.
Qed.
Print Assumptions C46_non_affine_refuted.
(** 2a - b + 1 and b - 3 vanish for a = 1, b = 3 *)
Definition x1 := mkExpr [0%nat; 1%nat] (fun a => 2 * a 0%nat - a 1%nat + 1).
Definition x2 := mkExpr [1%nat] (fun a => a 1%nat - 3).
Example C46_example : Forall (affine_below 2) [x1; x2] /\ map (map Qred) (equs 2 [x1; x2]) = [[2; -1]; [0; 1]] /\ map Qred (offsets [x1; x2]) = [-1; 3].
Proof.
  split; [|split; vm_compute; reflexivity]. repeat constructor.
  - exists 1, (fun i => match i with 0%nat => 2 | 1%nat => -1 | _ => 0 end). split; [|split].
    + intros [|[|i]]; cbn; tauto || reflexivity.
    + cbn. lia.
    + intros a. cbn. ring.
  - exists (-3), (fun i => match i with 1%nat => 1 | _ => 0 end). split; [|split].
    + intros [|[|i]]; cbn; tauto || reflexivity.
    + cbn. lia.
    + intros a. cbn. ring.
Qed.
