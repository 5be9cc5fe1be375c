(** C86: the profiles shipped with the package. There is one for each ancilla mode at the levels 0 to 3 and no other; each is what the generator of C71
    writes; the C++ side can read it; and the costs in it are within bounds and follow (up to the exceptions stated here) the order of the
    optimisation levels, of the numbers of controls and of the ancilla modes. *)
From Coq Require Import String List Bool Arith ZArith NArith QArith Lia.
From Verif Require Import PyConfig PyProfile PyProfileSolver ProfileGen ProfileGenSpec Schemes SchemesProofs2 ProfileData ProfileDataSpec ProfileDataProofs ProfileDataProofs2 ProfileDataProofs3 ProfileDataProofs4.
Import ListNotations.
Local Open Scope string_scope.

(** The package holds a profile under exactly the names that verify_compilation forms at the levels 0 to 3. *)
Theorem C86_files f : package_profile f <> None <-> exists l m, (0 <= l <= 3)%Z /\ f = generate_profile_name l m.
Proof. exact (package_files f). Qed.
Print Assumptions C86_files.
(** So at any other level the file that the configuration names does not exist. *)
Theorem C86_other_levels l m : ~ (0 <= l <= 3)%Z -> package_profile (generate_profile_name l m) = None.
Proof. exact (other_levels l m). Qed.
Print Assumptions C86_other_levels.

(** Each of them is, character by character, what the generator writes for some non-negative costs below 10^6 of the measured circuits: the costs beyond
    eleven controls are those it predicts, and those of the gates that are phase gates of a fixed angle are copied from the phase gate. *)
Theorem C86_generated l m : (0 <= l <= 3)%Z ->
  exists cost content, package_profile (generate_profile_name l m) = Some content /\
    profile_file cost cramer (fun name => name) "1.2.0" l m = Some content /\
    forall g nc c, measured_circuit m g nc = Some c -> (0 <= cost l c < 1000000)%Z.
Proof. exact (generated l m). Qed.
Print Assumptions C86_generated.

(** The gate-cost scheme can read each of them, *)
Theorem C86_readable tyof l m : knows_names tyof -> (0 <= l <= 3)%Z -> exists t, shipped_table tyof l m t.
Proof. exact (readable tyof l m). Qed.
Print Assumptions C86_readable.
(** has a cost for exactly these gates, *)
Theorem C86_which_gates tyof l m g n : knows_names tyof -> (0 <= l <= 3)%Z -> In g profile_gates ->
  ((exists c, shipped_cost tyof l m g n c) <-> has_cost g (N.to_nat n)).
Proof. exact (domain tyof l m g n). Qed.
Print Assumptions C86_which_gates.
(** applies as many gates of the second circuit as the file says, *)
Theorem C86_scheme tyof l m t g c fusion v : knows_names tyof -> (0 <= l <= 3)%Z -> shipped_table tyof l m t ->
  shipped_cost tyof l m g (v_nc v) c -> tyof g = Some (v_type v) -> (fusion = false \/ v_used v <> 1%N) -> gatecost_scheme t fusion v = (1, c)%N.
Proof. exact (scheme_cost tyof l m t g c fusion v). Qed.
Print Assumptions C86_scheme.
(** and one gate of each circuit if the file has no cost for the gate. *)
Theorem C86_one_each tyof l m t fusion v : knows_names tyof -> (0 <= l <= 3)%Z -> shipped_table tyof l m t ->
  (forall g, In g profile_gates -> tyof g = Some (v_type v) -> ~ has_cost g (N.to_nat (v_nc v))) -> gatecost_scheme t fusion v = (1, 1)%N.
Proof. exact (default_one tyof l m t fusion v). Qed.
Print Assumptions C86_one_each.

(** Every cost is below 10^6, and positive but for the uncontrolled SWAP from level 2 on. *)
Theorem C86_costs tyof l m g n c : knows_names tyof -> (0 <= l <= 3)%Z -> shipped_cost tyof l m g n c ->
  (c < 1000000)%N /\ (c = 0%N <-> g = "swap" /\ n = 0%N /\ (2 <= l)%Z).
Proof. exact (cost_range tyof l m g n c). Qed.
Print Assumptions C86_costs.

(** A higher level does not make a gate more expensive, but for the controlled SWAP between the levels 0 or 1 and 2 or 3 ... *)
Theorem C86_higher_level tyof l l' m g n c c' : knows_names tyof -> (0 <= l)%Z -> (l <= l')%Z -> (l' <= 3)%Z ->
  shipped_cost tyof l m g n c -> shipped_cost tyof l' m g n c' -> (c' <= c)%N \/ (g = "swap" /\ n = 1%N /\ (l <= 1)%Z /\ (2 <= l')%Z).
Proof. exact (higher_level tyof l l' m g n c c'). Qed.
Print Assumptions C86_higher_level.
(** ... and the levels 2 and 3 are the same. *)
Theorem C86_levels_2_and_3 tyof m g n c : knows_names tyof -> (shipped_cost tyof 2 m g n c <-> shipped_cost tyof 3 m g n c).
Proof. exact (level_2_3 tyof m g n c). Qed.
Print Assumptions C86_levels_2_and_3.

(** More controls do not make a gate cheaper, but for X with five instead of four controls with the recursion at level 0. *)
Theorem C86_more_controls tyof l m g n n' c c' : knows_names tyof -> (0 <= l <= 3)%Z -> (n <= n')%N ->
  shipped_cost tyof l m g n c -> shipped_cost tyof l m g n' c' -> (c <= c')%N \/ (l = 0%Z /\ m = Recursion /\ g = "x" /\ n = 4%N /\ n' = 5%N).
Proof. exact (more_controls tyof l m g n n' c c'). Qed.
Print Assumptions C86_more_controls.

(** The ancilla mode matters for X with at least three controls only. *)
Theorem C86_mode_matters tyof l m m' g n c c' : knows_names tyof -> (0 <= l <= 3)%Z -> shipped_cost tyof l m g n c -> shipped_cost tyof l m' g n c' ->
  c = c' \/ (g = "x" /\ (3 <= n)%N).
Proof. exact (modes_same tyof l m m' g n c c'). Qed.
Print Assumptions C86_mode_matters.
(** More ancillaries do not make a gate more expensive, but for X with three controls with the V-chain. *)
Theorem C86_more_ancillaries tyof l m m' g n c c' : knows_names tyof -> (0 <= l <= 3)%Z ->
  (m, m') = (NoAncilla, Recursion) \/ (m, m') = (NoAncilla, VChain) \/ (m, m') = (Recursion, VChain) ->
  shipped_cost tyof l m g n c -> shipped_cost tyof l m' g n c' -> (c' <= c)%N \/ (m' = VChain /\ g = "x" /\ n = 3%N).
Proof.
  intros K L M. apply (modes_order tyof l m m' g n c c' K L). destruct M as [M|[M|M]]; injection M as -> ->; cbn; lia.
Qed.
Print Assumptions C86_more_ancillaries.

(** A phase gate of a fixed angle costs what the phase gate costs, but for the controlled Z gate. *)
Theorem C86_fixed_phase tyof l m g n c c' : knows_names tyof -> (0 <= l <= 3)%Z -> In g ["z"; "s"; "sdg"; "t"; "tdg"] ->
  shipped_cost tyof l m g n c -> shipped_cost tyof l m "p" n c' -> c = c' \/ (g = "z" /\ n = 1%N).
Proof. exact (phase_gates tyof l m g n c c'). Qed.
Print Assumptions C86_fixed_phase.

(** *** the names, numbered in the order of the tables *)
Definition demo_names (g : string) : option optype :=
  (fix go (l : list string) (n : N) := match l with [] => None | g' :: r => if String.eqb g' g then Some (TOther n) else go r (n + 1)%N end) profile_gates 0%N.
Lemma demo_knows : knows_names demo_names.
Proof.
  assert (A : forallb (fun g => forallb (fun g' => match demo_names g, demo_names g' with
    | Some y, Some y' => implb (optype_eqb y y') (String.eqb g g') | _, _ => false end) profile_gates) profile_gates = true) by (vm_compute; reflexivity).
  rewrite forallb_forall in A. split.
  - intros g I. specialize (A g I). rewrite forallb_forall in A. specialize (A g I). now destruct (demo_names g).
  - intros g g' I I' E. specialize (A g I). rewrite forallb_forall in A. specialize (A g' I'). rewrite <- E in A. destruct (demo_names g) as [y|]; [|discriminate].
    rewrite (proj2 (optype_eqb_eq y y) eq_refl) in A. now apply String.eqb_eq.
Qed.
Lemma in_file l m g n c : (0 <= l <= 3)%Z -> In g profile_gates -> nth_error (costs g (d_of l m)) (N.to_nat n) = Some (Z.of_N c) -> shipped_cost demo_names l m g n c.
Proof. intros L G E. apply (cost_dget demo_names l m g n c demo_knows L). auto. Qed.
(** a few costs, as in the files *)
Example C86_example_costs : knows_names demo_names /\
  shipped_cost demo_names 0 NoAncilla "x" 5 272 /\ shipped_cost demo_names 0 Recursion "x" 5 140 /\ shipped_cost demo_names 0 VChain "x" 5 97 /\
  shipped_cost demo_names 1 VChain "p" 20 6121 /\ shipped_cost demo_names 1 VChain "t" 20 6121 /\ ~ (exists c, shipped_cost demo_names 3 VChain "y" 2 c).
Proof.
  split; [exact demo_knows|].
  assert (X : In "x" profile_gates) by (cbn; tauto). assert (P : In "p" profile_gates) by (cbn; tauto). assert (T : In "t" profile_gates) by (cbn; tauto).
  do 5 (split; [apply in_file; [lia|assumption|vm_compute; reflexivity]|]).
  rewrite (domain demo_names 3 VChain "y" 2 demo_knows ltac:(lia) ltac:(cbn; tauto)). cbn. intros [H _]. repeat (destruct H as [H|H]; [discriminate|]). exact H.
Qed.

(** Claims that the exceptions refute. *)
Theorem C86_both_circuits_advance_refuted : ~ (forall tyof l m t fusion v, knows_names tyof -> (0 <= l <= 3)%Z -> shipped_table tyof l m t ->
  (1 <= fst (gatecost_scheme t fusion v))%N /\ (1 <= snd (gatecost_scheme t fusion v))%N).
Proof.
  intros H. destruct (readable demo_names 2 NoAncilla demo_knows ltac:(lia)) as [t T]. set (v := mkView (TOther 15) 0 2).
  destruct (H demo_names 2%Z NoAncilla t false v demo_knows ltac:(lia) T) as [_ B].
  rewrite (C86_scheme demo_names 2 NoAncilla t "swap" 0 false v demo_knows ltac:(lia) T) in B; [cbn in B; lia| |reflexivity|now left].
  apply in_file; [lia|cbn; tauto|vm_compute; reflexivity].
Qed.
Print Assumptions C86_both_circuits_advance_refuted.
Theorem C86_higher_level_never_costlier_refuted : ~ (forall tyof l l' m g n c c', knows_names tyof -> (0 <= l)%Z -> (l <= l')%Z -> (l' <= 3)%Z ->
  shipped_cost tyof l m g n c -> shipped_cost tyof l' m g n c' -> (c' <= c)%N).
Proof.
  intros H. enough (X : (25 <= 20)%N) by lia. apply (H demo_names 1%Z 2%Z NoAncilla "swap" 1%N); try exact demo_knows; try lia;
    (apply in_file; [lia|cbn; tauto|vm_compute; reflexivity]).
Qed.
Print Assumptions C86_higher_level_never_costlier_refuted.
Theorem C86_more_controls_never_cheaper_refuted : ~ (forall tyof l m g n n' c c', knows_names tyof -> (0 <= l <= 3)%Z -> (n <= n')%N ->
  shipped_cost tyof l m g n c -> shipped_cost tyof l m g n' c' -> (c <= c')%N).
Proof.
  intros H. enough (X : (157 <= 140)%N) by lia. apply (H demo_names 0%Z Recursion "x" 4%N 5%N); try exact demo_knows; try lia;
    (apply in_file; [lia|cbn; tauto|vm_compute; reflexivity]).
Qed.
Print Assumptions C86_more_controls_never_cheaper_refuted.
Theorem C86_more_ancillaries_never_costlier_refuted : ~ (forall tyof l g n c c', knows_names tyof -> (0 <= l <= 3)%Z ->
  shipped_cost tyof l NoAncilla g n c -> shipped_cost tyof l VChain g n c' -> (c' <= c)%N).
Proof.
  intros H. enough (X : (45 <= 35)%N) by lia. apply (H demo_names 0%Z "x" 3%N); try exact demo_knows; try lia;
    (apply in_file; [lia|cbn; tauto|vm_compute; reflexivity]).
Qed.
Print Assumptions C86_more_ancillaries_never_costlier_refuted.
