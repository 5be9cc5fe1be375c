(** The extrapolation of gate-cost profiles: C49. *)
From Coq Require Import String List Bool Arith ZArith QArith Qabs Lia Lqa Sorting.Permutation Sorting.Sorted.
From Verif Require Import PyProfile PyProfileSpec PyProfileProofs PyProfileSolver.
Import ListNotations.

(** C49. The continuation of a gate's costs adds (or overwrites) only entries of that gate, for consecutive numbers of controls from max_control + 1 on,
    at most max_qubits - max_control - 1 of them, each below the cut-off; everything else is as before. *)
Theorem C49_continuation solve d gate cutoff max_order max_control max_qubits cut d' :
  find_continuation solve d gate cutoff max_order max_control max_qubits cut = Some d' ->
  exists m, (m <= max_qubits - max_control - 1)%nat /\
    (forall nc, (max_control < nc <= max_control + m)%nat -> exists v, dget d' (gate, nc) = Some v /\ inject_Z v < cut) /\
    (forall g nc, g <> gate \/ (nc <= max_control)%nat \/ (max_control + m < nc)%nat -> dget d' (g, nc) = dget d (g, nc)).
Proof.
  intros E. apply extend_spec in E as (m & L & H1 & H2). exists m. split; auto. split.
  - intros nc B. destruct (H1 (nc - max_control - 1)%nat ltac:(lia)) as (v & V & C). exists v. split; auto. rewrite <- V. do 2 f_equal. lia.
  - intros g nc B. apply H2. intros j J X. injection X as -> ->. destruct B as [B|B]; [congruence|lia].
Qed.
Print Assumptions C49_continuation.
(** A gate realised by the phase gate gets its cost only if it has none of its own; no other gate is touched. *)
Theorem C49_special_cases gates underlying d g nc : dget (add_special_case_data gates underlying d) (g, nc) =
  match dget d (g, nc) with Some v => Some v | None => if existsb (String.eqb g) gates then dget d (underlying, nc) else None end.
Proof. exact (special_spec gates underlying d (g, nc)). Qed.
Print Assumptions C49_special_cases.
(** In a generated profile every cost measured for at most 11 controls is as measured (a later measurement replaces an earlier one), and the special
    gates have a cost wherever the phase gate has. *)
Theorem C49_measured_costs_kept solve general mcphase moded d : keys_nodup mcphase -> keys_nodup moded -> generate_profile solve general mcphase moded = Some d ->
  forall g nc, (nc <= 11)%nat ->
     let measured := match dget moded (g, nc) with Some v => Some v | None => match dget mcphase (g, nc) with Some v => Some v | None => dget general (g, nc) end end in
     measured <> None -> dget d (g, nc) = measured.
Proof. intros N1 N2 E. exact (proj1 (generate_main _ _ _ _ _ N1 N2 E)). Qed.
Print Assumptions C49_measured_costs_kept.
Theorem C49_special_gates_covered solve general mcphase moded d : keys_nodup mcphase -> keys_nodup moded -> generate_profile solve general mcphase moded = Some d ->
  forall g nc v, In g ["z"; "s"; "sdg"; "t"; "tdg"]%string -> dget d ("p"%string, nc) = Some v -> dget d (g, nc) <> None.
Proof. intros N1 N2 E. exact (proj2 (generate_main _ _ _ _ _ N1 N2 E)). Qed.
Print Assumptions C49_special_gates_covered.
(** Nothing else is in a generated profile: a cost that was not measured is a predicted one of the phase gate, of the X gate or of a special gate (the
    phase gate's). *)
Theorem C49_nothing_else solve general mcphase moded d : keys_nodup mcphase -> keys_nodup moded -> generate_profile solve general mcphase moded = Some d ->
  forall g nc v, dget d (g, nc) = Some v -> dget general (g, nc) = None -> dget mcphase (g, nc) = None -> dget moded (g, nc) = None ->
  ((g = "p"%string \/ g = "x"%string) /\ (11 < nc < 128)%nat /\ inject_Z v < 1000000) \/ (In g ["z"; "s"; "sdg"; "t"; "tdg"]%string /\ dget d ("p"%string, nc) = Some v).
Proof. exact (generate_only solve general mcphase moded d). Qed.
Print Assumptions C49_nothing_else.
(** A recurrence that is accepted reproduces every term of the sequence within 1/100, given that the solver solves. *)
Theorem C49_recurrence_fits solve s order c :
  (forall m f c, solve m f = Some c -> length m = length f -> Forall2 (fun row v => sumprod c row == inject_Z v) m f) ->
  check_recurrence solve s order = Some c -> forall i, (order <= i < length s)%nat ->
  Qabs (sumprod c (slice (i - order) order s) - inject_Z (nth i s 0%Z)) <= 1 # 100.
Proof. exact (check_recurrence_spec solve s order c). Qed.
Print Assumptions C49_recurrence_fits.
(** The predicted costs. [nearest t q]: t is the integer nearest to q, the even one of two. The recurrence is the accepted one of smallest order,
    or the linear one; each predicted cost is the integer nearest to the recurrence applied to the costs before it, and the prediction only stops early at
    one that reaches the cut-off. *)
Definition nearest (t : Z) (q : Q) : Prop := Qabs (inject_Z t - q) <= 1 # 2 /\ (Qabs (inject_Z t - q) == 1 # 2 -> Z.even t = true).
Theorem C49_predicted_costs solve d gate cutoff max_order max_control max_qubits cut d' :
  let s := skipn cutoff (sorted (map snd (filter (fun e => String.eqb (fst (fst e)) gate) d))) in
  find_continuation solve d gate cutoff max_order max_control max_qubits cut = Some d' ->
  exists c, ((c = [-1; 2] /\ forall o, (1 <= o <= max_order)%nat -> check_recurrence solve s o = None) \/
             (exists o, (1 <= o <= max_order)%nat /\ check_recurrence solve s o = Some c /\ forall o', (1 <= o' < o)%nat -> check_recurrence solve s o' = None)) /\
    let recent (l : list Z) := skipn (length l - length c) l in
    ((length c <= length s)%nat ->
    exists ts, (length ts <= max_qubits - max_control - 1)%nat /\
      (forall j, (j < length ts)%nat -> dget d' (gate, (max_control + j + 1)%nat) = Some (nth j ts 0%Z) /\ nearest (nth j ts 0%Z) (sumprod c (recent (s ++ firstn j ts)))) /\
      ((length ts < max_qubits - max_control - 1)%nat -> exists t, nearest t (sumprod c (recent (s ++ ts))) /\ cut <= inject_Z t)).
Proof.
  intros s E. unfold find_continuation in E. change (sequence d gate cutoff) with s in E. exists (coefficients solve s max_order). split.
  - unfold coefficients. assert (F := first_recurrence_first solve s (seq 1 max_order)). destruct (first_recurrence solve s (seq 1 max_order)) as [c|].
    + right. destruct F as (pre & o & post & Q & H1 & H2). exists o.
      assert (Io : In o (seq 1 max_order)) by (rewrite Q; apply in_or_app; right; left; reflexivity). apply in_seq in Io. split; [lia|]. split; [exact H1|].
      intros o' B. apply H2. assert (I : In o' (seq 1 max_order)) by (apply in_seq; lia). rewrite Q in I. apply in_app_or in I as [I|I]; auto. exfalso.
      assert (N : nth (length pre) (seq 1 max_order) 0%nat = o) by (rewrite Q, app_nth2, Nat.sub_diag by lia; reflexivity).
      assert (Lp : (length pre < max_order)%nat). { rewrite <- (seq_length max_order 1), Q, app_length. cbn [length]. lia. }
      rewrite seq_nth in N by auto. destruct (In_nth _ _ 0%nat I) as (k & Lk & Nk).
      assert (N' : nth (length pre + k) (seq 1 max_order) 0%nat = o') by (rewrite Q, app_nth2, Nat.add_comm, Nat.add_sub by lia; exact Nk).
      rewrite seq_nth in N'; [lia|]. rewrite <- (seq_length max_order 1), Q, app_length. lia.
    + left. split; auto. intros o B. apply F. apply in_seq. lia.
  - intros recent L. destruct (extend_values _ _ _ _ _ _ _ _ _ L E) as (ts & H & H1 & H2 & _). exists ts. split; auto. split.
    + intros j J. destruct (H1 j J) as [V W]. split; [rewrite <- V; do 2 f_equal; lia|]. rewrite W at 1. exact (round_even_nearest _).
    + intros J. eexists. split; [|exact (H2 J)]. exact (round_even_nearest _).
Qed.
Print Assumptions C49_predicted_costs.
(** If none is found the costs grow linearly with the difference of the two largest ones, up to the cut-off. *)
Theorem C49_linear_fallback solve d gate cutoff max_order max_control max_qubits cut l a b :
  skipn cutoff (sorted (map snd (filter (fun e => String.eqb (fst (fst e)) gate) d))) = (l ++ [a; b])%list ->
  (forall order, (1 <= order <= max_order)%nat -> check_recurrence solve (l ++ [a; b]) order = None) ->
  exists d' m, find_continuation solve d gate cutoff max_order max_control max_qubits cut = Some d' /\ (m <= max_qubits - max_control - 1)%nat /\
    (forall j, (j < m)%nat -> dget d' (gate, (max_control + j + 1)%nat) = Some (b + Z.of_nat (j + 1) * (b - a))%Z) /\
    ((m < max_qubits - max_control - 1)%nat -> cut <= inject_Z (b + Z.of_nat (m + 1) * (b - a))).
Proof.
  intros Q N. unfold find_continuation, sequence. rewrite Q. assert (C : coefficients solve (l ++ [a; b]) max_order = [-1; 2]).
  { unfold coefficients. assert (F : forall os, (forall o, In o os -> check_recurrence solve (l ++ [a; b]) o = None) -> first_recurrence solve (l ++ [a; b]) os = None).
    { induction os as [|o os IH]; intros H; cbn [first_recurrence]; auto. rewrite H by now left. apply IH. intros o' I. apply H. now right. }
    rewrite F; auto. intros o I. apply N. apply in_seq in I. lia. }
  rewrite C. destruct (extend_linear gate max_control cut (max_qubits - max_control - 1) 0 l a b d) as (m & d' & E & L & H1 & H2 & _).
  exists d', m. split; auto. split; auto. split; auto. intros j J. destruct (H1 j J) as [V _]. rewrite <- V. do 2 f_equal. lia.
Qed.
Print Assumptions C49_linear_fallback.
(** 'sorted' is a sorted rearrangement *)
Theorem C49_sorted l : Permutation (sorted l) l /\ StronglySorted Z.le (sorted l).
Proof. split; [apply sorted_perm|apply sorted_sorted]. Qed.
Print Assumptions C49_sorted.

(** ** Predicted costs need not make sense. The solver is Cramer's rule for up to three unknowns. *)

(** It solves. *)
Theorem C49_cramer_solves m f c : cramer m f = Some c -> Forall2 (fun row v => sumprod c row == inject_Z v) m f.
Proof. exact (cramer_ok m f c). Qed.
Print Assumptions C49_cramer_solves.
(** costs that grow ever more slowly, 23, 44, ..., 144, for 0 to 11 controls *)
Definition concave (g : string) : dict := map (fun n => ((g, n), (24 * (Z.of_nat n + 1) - (Z.of_nat n + 1) * (Z.of_nat n + 1))%Z)) (seq 0 12).
(** Although all measured costs are positive, predicted ones are negative (the C++ reader takes a cost of -n for 2^64 - n). *)
Theorem C49_nonnegative_refuted : ~ (forall solve d gate d', (forall m f c, solve m f = Some c -> Forall2 (fun row v => sumprod c row == inject_Z v) m f) ->
  (forall k v, dget d k = Some v -> (0 < v)%Z) -> find_continuation solve d gate 5 3 11 128 1000000 = Some d' -> forall k v, dget d' k = Some v -> (0 <= v)%Z).
Proof.
  intros H. destruct (find_continuation cramer (concave "p") "p" 5 3 11 128 1000000) as [d'|] eqn:E; [|vm_compute in E; discriminate].
  specialize (H cramer (concave "p") "p"%string d' cramer_ok). assert (P : forall k v, dget (concave "p") k = Some v -> (0 < v)%Z).
  { intros k v V. apply dget_in in V. vm_compute in V. repeat (destruct V as [V|V]; [injection V as _ <-; lia|]). destruct V. }
  specialize (H P E ("p"%string, 24%nat)). assert (X : dget d' ("p"%string, 24%nat) = Some (-25)%Z).
  { assert (Y : match find_continuation cramer (concave "p") "p" 5 3 11 128 1000000 with Some d => dget d ("p"%string, 24%nat) | None => None end = Some (-25)%Z) by (vm_compute; reflexivity).
    rewrite E in Y. exact Y. }
  specialize (H _ X). lia.
Qed.
Print Assumptions C49_nonnegative_refuted.
(** With too few measured costs (at most the five smallest, which are not used) there is nothing to continue: an exception. *)
Theorem C49_total_refuted : ~ (forall solve d gate, exists d', find_continuation solve d gate 5 3 11 128 1000000 = Some d').
Proof. intros H. destruct (H (fun _ _ => None) [(("p", 0%nat), 1%Z)]%string "p"%string) as (d' & E). vm_compute in E. discriminate. Qed.
Print Assumptions C49_total_refuted.
(** It always succeeds with seven or more costs of the gate. *)
Theorem C49_total solve d gate cutoff max_order max_control max_qubits cut :
  (forall m f c, solve m f = Some c -> length c = length f) ->
  (cutoff + 2 <= length (filter (fun e => String.eqb (fst (fst e)) gate) d))%nat ->
  find_continuation solve d gate cutoff max_order max_control max_qubits cut <> None.
Proof. exact (find_continuation_total solve d gate cutoff max_order max_control max_qubits cut). Qed.
Print Assumptions C49_total.

Example C49_nonvacuous : exists d, generate_profile cramer [(("p", 0%nat), 1%Z); (("z", 0%nat), 2%Z)]%string (concave "p") (map (fun n => (("x"%string, n), Z.of_nat (7 * n))) (seq 0 12)) = Some d /\
  dget d ("x"%string, 12%nat) = Some 84%Z /\ dget d ("x"%string, 127%nat) = Some 889%Z /\ dget d ("x"%string, 128%nat) = None /\
  dget d ("p"%string, 5%nat) = Some 108%Z /\ dget d ("z"%string, 0%nat) = Some 2%Z /\ dget d ("t"%string, 12%nat) = Some 143%Z.
Proof. eexists. split; [vm_compute; reflexivity|]. vm_compute. auto 10. Qed.
