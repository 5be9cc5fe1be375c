(** C17, C19, C20: the stimuli generator and the bound on the number of simulations. *)
From Coq Require Import List Bool NArith Arith QArith Lia.
From Verif Require Import Criterion Config SeqFlow SeqSpec SeqDemo SeqProofs3 ParFlow ParSpec ParProofs7 StateGen StateGenSpec StateGenProofs StateGenProofs2.
Import ListNotations.
Local Close Scope Q_scope.

(** ** C19 *)
(** every returned stimulus is a fresh basis state on the lowest [total - anc] qubits, |0> elsewhere, and is recorded *)
Theorem C19_stimulus_shape {MT} (word : MT -> N * MT) unif nd fuel total anc g s g' :
  in_range unif -> total - anc <= 63 -> generate MT word unif nd fuel total anc ComputationalBasis g = GState s g' ->
  exists v bs, s = SBits bs /\ (v < 2 ^ N.of_nat (total - anc))%N /\ ~ In v (g_used g) /\ g_used g' = v :: g_used g /\
    basis_state total (total - anc) v bs.
Proof.
  intros IR R E. cbn [generate] in E. destruct (genComputational MT word unif nd fuel total anc g) as [bs g1| | |] eqn:G; try discriminate.
  cbn in E. injection E as <- <-. destruct (genC_shape word unif nd fuel total anc g bs g1 IR R G) as (v & A & B & C & D).
  exists v, bs. auto.
Qed.
Print Assumptions C19_stimulus_shape.

(** any sequence of stimuli is free of repetitions *)
Theorem C19_pairwise_distinct {MT} (word : MT -> N * MT) unif nd total anc g l g' :
  in_range unif -> total - anc <= 63 -> stimuli word unif nd total anc ComputationalBasis g l g' -> NoDup l.
Proof. exact (stimuli_nodup word unif nd total anc g l g'). Qed.
Print Assumptions C19_pairwise_distinct.

(** from a fresh (or cleared) generator at most 2^r stimuli can be drawn ... *)
Theorem C19_at_most_all_states {MT} (word : MT -> N * MT) unif nd total anc g l g' :
  in_range unif -> total - anc <= 63 -> g_used g = [] -> stimuli word unif nd total anc ComputationalBasis g l g' ->
  (N.of_nat (length l) <= 2 ^ N.of_nat (total - anc))%N.
Proof. exact (stimuli_count word unif nd total anc g l g'). Qed.
Print Assumptions C19_at_most_all_states.

(** ... and with a fair source exactly 2^r are drawn, among them every basis state *)
Theorem C19_all_states_are_drawn {MT} (word : MT -> N * MT) unif nd total anc g :
  fair unif -> in_range unif -> total - anc <= 63 -> anc <= total -> g_used g = [] ->
  exists l g', stimuli word unif nd total anc ComputationalBasis g l g' /\ N.of_nat (length l) = (2 ^ N.of_nat (total - anc))%N /\
    forall v bs, (v < 2 ^ N.of_nat (total - anc))%N -> basis_state total (total - anc) v bs -> In (SBits bs) l.
Proof. exact (all_states word unif nd total anc g). Qed.
Print Assumptions C19_all_states_are_drawn.

(** the retry loop ends with the first unused value of the random sequence, consuming the draws up to it and no more *)
Theorem C19_first_unused_value {MT} (word : MT -> N * MT) unif nd fuel total anc g bs g' :
  total - anc <= 63 -> anc <= total -> (nd = false -> N.of_nat (length (g_used g)) <> (2 ^ N.of_nat (total - anc))%N) ->
  (genComputational MT word unif nd fuel total anc g = GState bs g' <->
   exists n v, n < fuel /\ drawn MT unif n (2 ^ N.of_nat (total - anc) - 1) (g_mt g) = v /\ ~ In v (g_used g) /\
    (forall k, k < n -> In (drawn MT unif k (2 ^ N.of_nat (total - anc) - 1) (g_mt g)) (g_used g)) /\
    basis_state total (total - anc) v bs /\
    g' = mkGen (engine MT unif (S n) (2 ^ N.of_nat (total - anc) - 1) (g_mt g)) (v :: g_used g)).
Proof.
  intros R L Y. rewrite (genC_state word unif nd fuel total anc g bs g' R).
  assert (X : forall v, bs = fill total (total - anc) (fun i => N.testbit v (N.of_nat i)) <-> basis_state total (total - anc) v bs).
  { intros v. pose proof (fill_basis_state total (total - anc) v ltac:(lia)) as FB. split; [intros ->; exact FB|].
    intros B. exact (basis_state_fun _ _ _ _ _ B FB). }
  split.
  - intros (_ & _ & n & v & A & B & C & D & E & F). exists n, v. apply X in E. auto 10.
  - intros (n & v & A & B & C & D & E & F). split; auto. split; auto. exists n, v. apply X in E. auto 10.
Qed.
Print Assumptions C19_first_unused_value.

(** never returning means: asserts are off and all states are used; with asserts the call aborts instead *)
Theorem C19_never_returns_iff_exhausted {MT} (word : MT -> N * MT) unif nd total anc g :
  fair unif -> in_range unif -> total - anc <= 63 -> anc <= total -> used_ok (total - anc) g ->
  (never_returns word unif nd total anc ComputationalBasis g <-> nd = true /\ all_used (total - anc) g).
Proof. exact (never_iff word unif nd total anc g). Qed.
Print Assumptions C19_never_returns_iff_exhausted.

Theorem C19_aborts_iff_exhausted {MT} (word : MT -> N * MT) unif nd fuel total anc g :
  in_range unif -> total - anc <= 63 -> anc <= total -> used_ok (total - anc) g ->
  (generate MT word unif nd fuel total anc ComputationalBasis g = GAbort <-> nd = false /\ all_used (total - anc) g).
Proof. exact (abort_iff word unif nd fuel total anc g). Qed.
Print Assumptions C19_aborts_iff_exhausted.

Theorem C19_returns_until_exhausted {MT} (word : MT -> N * MT) unif nd total anc g :
  fair unif -> in_range unif -> total - anc <= 63 -> anc <= total -> used_ok (total - anc) g -> ~ all_used (total - anc) g ->
  returns word unif nd total anc ComputationalBasis g.
Proof. exact (generate_returns word unif nd total anc g). Qed.
Print Assumptions C19_returns_until_exhausted.

(** the hypothesis [used_ok] holds for a new or cleared generator and is kept by every call *)
Theorem C19_bookkeeping {MT} (word : MT -> N * MT) unif (seeded : N -> MT) nd total anc :
  in_range unif -> total - anc <= 63 ->
  (forall device seed, used_ok (total - anc) (newGenerator MT seeded device seed)) /\
  (forall g : gen MT, used_ok (total - anc) (clear g)) /\
  (forall g l g', stimuli word unif nd total anc ComputationalBasis g l g' -> used_ok (total - anc) g ->
     used_ok (total - anc) g' /\ length (g_used g') = length l + length (g_used g)).
Proof.
  intros IR R. split; [|split].
  - intros. split; cbn; [constructor|intros ? []].
  - intros. split; cbn; [constructor|intros ? []].
  - intros g l g' S. exact (used_ok_kept word unif nd total anc g l g' IR R S).
Qed.
Print Assumptions C19_bookkeeping.

(** with the same non-zero seed two generators yield the same stimuli, whatever the entropy device delivers *)
Theorem C19_seed_determines_stimuli {MT} (word : MT -> N * MT) unif (seeded : N -> MT) device1 device2 seed nd total anc t l1 g1 l2 g2 :
  seed <> 0%N ->
  stimuli word unif nd total anc t (newGenerator MT seeded device1 seed) l1 g1 ->
  stimuli word unif nd total anc t (newGenerator MT seeded device2 seed) l2 g2 -> length l1 = length l2 -> l1 = l2.
Proof.
  intros NZ. unfold newGenerator, seedGenerator. cbn [g_used]. destruct (N.eqb_spec seed 0); [contradiction|]. clear.
  generalize (mkGen (seeded seed) []). intros g S1. revert l2. induction S1 as [g|g fuel s g1 l g2' E S IH]; intros l2 S2 L.
  - destruct l2; [reflexivity|discriminate].
  - inversion S2 as [|? fuel2 s2 g12 l2' ? E2 S2']; subst; [discriminate|].
    assert (X : s = s2 /\ g1 = g12).
    { clear - E E2. destruct t; cbn in *.
      - destruct (Nat.le_gt_cases (total - anc) 63) as [R|R].
        + destruct (genComputational MT word unif nd fuel total anc g) as [b1 h1| | |] eqn:G1; try discriminate.
          destruct (genComputational MT word unif nd fuel2 total anc g) as [b2 h2| | |] eqn:G2; try discriminate.
          cbn in *. injection E as <- <-. injection E2 as <- <-.
          assert (G1' : genComputational MT word unif nd (fuel + fuel2) total anc g = GState b1 h1).
          { apply genC_state; auto. apply genC_state in G1; auto. destruct G1 as (A & B & n & v & C & D). split; auto. split; auto.
            exists n, v. split; [lia|auto]. }
          assert (G2' : genComputational MT word unif nd (fuel + fuel2) total anc g = GState b2 h2).
          { apply genC_state; auto. apply genC_state in G2; auto. destruct G2 as (A & B & n & v & C & D). split; auto. split; auto.
            exists n, v. split; [lia|auto]. }
          rewrite G1' in G2'. injection G2' as <- <-. auto.
        + unfold genComputational in *. destruct (total <? anc); [discriminate|]. destruct (Nat.leb_spec (total - anc) 63); [lia|].
          rewrite E in E2. injection E2 as <- <-. auto.
      - rewrite E in E2. injection E2 as <- <-. auto.
      - rewrite E in E2. injection E2 as <- <-. auto. }
    destruct X as [<- <-]. f_equal. eapply IH; eauto.
Qed.
Print Assumptions C19_seed_determines_stimuli.

(** the same with [set_seed] on a manager whose generator remembers no states (new, or cleared by reset) *)
Theorem C19_set_seed_reproduces {MT} (word : MT -> N * MT) unif (seeded : N -> MT) device1 device2 seed nd total anc t g l1 g1 l2 g2 :
  seed <> 0%N -> g_used g = [] ->
  stimuli word unif nd total anc t (seedGenerator MT seeded device1 seed g) l1 g1 ->
  stimuli word unif nd total anc t (newGenerator MT seeded device2 seed) l2 g2 -> length l1 = length l2 -> l1 = l2.
Proof.
  intros NZ G S1 S2. apply (C19_seed_determines_stimuli word unif seeded device1 device2 seed nd total anc t l1 g1 l2 g2); auto.
  unfold newGenerator, seedGenerator in *. cbn [g_used] in *. rewrite G in S1. exact S1.
Qed.
Print Assumptions C19_set_seed_reproduces.

(** seed 0 asks the entropy device: different entropy, different stimuli *)
Theorem C19_seed_zero_reproducible_refuted :
  ~ (forall device1 device2 nd total anc t l1 g1 l2 g2,
      stimuli cword cunif nd total anc t (newGenerator N (fun n => n) device1 0) l1 g1 ->
      stimuli cword cunif nd total anc t (newGenerator N (fun n => n) device2 0) l2 g2 -> length l1 = length l2 -> l1 = l2).
Proof.
  intros H. pose proof (H 0%N 1%N true 1 0 ComputationalBasis [SBits [false]] (mkGen 1%N [0%N]) [SBits [true]] (mkGen 2%N [1%N])) as X.
  enough (Y : [SBits [false]] = [SBits [true]]) by discriminate. apply X; [| |reflexivity].
  - eapply (stim_cons _ _ _ _ _ _ _ 5); [vm_compute; reflexivity|apply stim_nil].
  - eapply (stim_cons _ _ _ _ _ _ _ 5); [vm_compute; reflexivity|apply stim_nil].
Qed.
Print Assumptions C19_seed_zero_reproducible_refuted.

(** the seed fixes the stimuli of the first run only: a run does not seed again, and [set_seed] does not forget the states
    used before, so (1) a second run after reset and (2) a first draw after [set_seed] can differ from those of a new manager *)
Theorem C19_seed_fixes_every_run_refuted :
  exists nd total anc seed s0 g0, seed <> 0%N /\
    stimuli cword cunif nd total anc ComputationalBasis (newGenerator N (fun n => n) 0%N seed) [s0] g0 /\
    (exists s1 g1, stimuli cword cunif nd total anc ComputationalBasis (clear g0) [s1] g1 /\ s1 <> s0) /\
    (exists s2 g2, stimuli cword cunif nd total anc ComputationalBasis (seedGenerator N (fun n => n) 0%N seed g0) [s2] g2 /\ s2 <> s0).
Proof.
  exists true, 1, 0, 1%N, (SBits [true]), (mkGen 2%N [1%N]). split; [discriminate|]. split; [|split].
  - eapply (stim_cons _ _ _ _ _ _ _ 5); [vm_compute; reflexivity|apply stim_nil].
  - exists (SBits [false]). eexists. split; [eapply (stim_cons _ _ _ _ _ _ _ 5); [vm_compute; reflexivity|apply stim_nil]|discriminate].
  - exists (SBits [false]). eexists. split; [eapply (stim_cons _ _ _ _ _ _ _ 5); [vm_compute; reflexivity|apply stim_nil]|discriminate].
Qed.
Print Assumptions C19_seed_fixes_every_run_refuted.

(** non-vacuity: a fair source in range; the four states of two random qubits (of three), then the fifth call hangs or aborts *)
Example C19_example_source : fair cunif /\ in_range cunif.
Proof. exact (conj cunif_fair cunif_range). Qed.
Example C19_example :
  let g0 := mkGen 2%N [] in
  exists g4, stimuli cword cunif true 3 1 ComputationalBasis g0
     [SBits [false; true; false]; SBits [true; true; false]; SBits [false; false; false]; SBits [true; false; false]] g4 /\
   generate N cword cunif true 50 3 1 ComputationalBasis g4 = GOut /\ generate N cword cunif false 50 3 1 ComputationalBasis g4 = GAbort.
Proof.
  cbn zeta. eexists. split.
  - repeat (eapply (stim_cons _ _ _ _ _ _ _ 5); [vm_compute; reflexivity|]). apply stim_nil.
  - split; vm_compute; reflexivity.
Qed.

(** ** C20 *)
(** 64 or more random qubits: bit i is bit (i mod 64) of the random word drawn after i / 64 others, and that many words are drawn; the
    generator advances past them *)
Theorem C20_large_stimuli {MT} (word : MT -> N * MT) unif nd fuel total anc g : 64 <= total - anc ->
  let after n := Nat.iter n (fun m => snd (word m)) (g_mt g) in
  exists bs, generate MT word unif nd fuel total anc ComputationalBasis g = GState (SBits bs) (mkGen (after ((total - anc + 63) / 64)) (g_used g)) /\
   length bs = total /\
   (forall i, i < total - anc -> i / 64 < (total - anc + 63) / 64 /\ nth i bs false = N.testbit (fst (word (after (i / 64)))) (N.of_nat (i mod 64))) /\
   (forall i, total - anc <= i -> nth i bs false = false).
Proof. exact (large_shape word unif nd fuel total anc g). Qed.
Print Assumptions C20_large_stimuli.

(** every assignment of the random bits arises from some 64-bit random words *)
Theorem C20_large_stimuli_onto {MT} (word : MT -> N * MT) unif total anc (target : list bool) :
  64 <= total - anc -> length target = total - anc ->
  exists ws, length ws = (total - anc + 63) / 64 /\ Forall (fun w => (w < 2 ^ 64)%N) ws /\
    forall nd fuel g, (forall j, j < length ws -> fst (word (Nat.iter j (fun m => snd (word m)) (g_mt g))) = nth j ws 0%N) ->
      exists g', generate MT word unif nd fuel total anc ComputationalBasis g = GState (SBits (target ++ repeat false anc)) g'.
Proof. exact (large_onto word unif total anc target). Qed.
Print Assumptions C20_large_stimuli_onto.

(** local quantum stimuli: one basis state per random qubit, chosen by its own draw from 0..5 *)
Theorem C20_local_stimuli {MT} (word : MT -> N * MT) unif nd fuel total anc g : anc <= total ->
  exists bs g', generate MT word unif nd fuel total anc Random1QBasis g = GState (SBases bs) g' /\ g_used g' = g_used g /\ g_mt g' = engine MT unif (total - anc) 5 (g_mt g) /\
    length bs = total /\
    (forall i, i < total - anc -> nth i bs Bzero = bstate_of (drawn MT unif i 5 (g_mt g))) /\
    (forall i, total - anc <= i -> nth i bs Bzero = Bzero).
Proof. exact (local_shape word unif nd fuel total anc g). Qed.
Print Assumptions C20_local_stimuli.

(** the six draws stand for the six basis states, one each *)
Theorem C20_local_states_one_to_one b :
  exists n, (n <= 5)%N /\ bstate_of n = b /\ forall n', (n' <= 5)%N -> bstate_of n' = b -> n' = n.
Proof. exact (bstate_onto b). Qed.
Print Assumptions C20_local_states_one_to_one.

(** global quantum stimuli: a Clifford state on the random qubits with |0> above; its depth is log2 of their number, rounded
    (|depth - log2 r| <= 1/2, squared to stay in the integers) *)
Theorem C20_global_stimuli {MT} (word : MT -> N * MT) unif nd fuel total anc g : anc < total ->
  let r := N.of_nat (total - anc) in
  exists s g', generate MT word unif nd fuel total anc Stabilizer g = GState (SStab s) g' /\ g_used g' = g_used g /\ g_mt g' = snd (word (g_mt g)) /\
    st_qubits s = total - anc /\ st_qubits s + st_zeros s = total /\ st_seed s = fst (word (g_mt g)) /\
    (r * r < 2 ^ (2 * st_depth s + 1))%N /\ (2 ^ (2 * st_depth s) <= 2 * (r * r))%N.
Proof.
  intros L r. destruct (stabilizer_shape word unif nd fuel total anc g L) as (s & g' & A & B & M & C & D & E & F).
  exists s, g'. rewrite F. pose proof (round_log2_spec r ltac:(unfold r; lia)) as [H1 H2]. unfold r in *. repeat split; assumption.
Qed.
Print Assumptions C20_global_stimuli.

(** with no random qubit a global quantum stimulus is undefined (log2 of 0 converted to an integer) *)
Theorem C20_global_stimuli_defined_refuted {MT} (word : MT -> N * MT) unif nd fuel total g :
  generate MT word unif nd fuel total total Stabilizer g = GUndefined.
Proof. apply stabilizer_undefined. lia. Qed.
Print Assumptions C20_global_stimuli_defined_refuted.

Example C20_example_large :
  exists bs g', generate N cword cunif true 0 70 4 ComputationalBasis (mkGen 7%N []) = GState (SBits bs) g' /\
    nth 65 bs true = N.testbit (fst (cword 8)) 1 /\ nth 66 bs true = false.
Proof. eexists. eexists. split; [vm_compute; reflexivity|]. split; reflexivity. Qed.
Example C20_example_local :
  exists g', generate N cword cunif true 0 4 1 Random1QBasis (mkGen 3%N []) = GState (SBases [Bminus; Bright; Bleft; Bzero]) g'.
Proof. eexists. vm_compute. reflexivity. Qed.
Example C20_example_global :
  exists s g', generate N cword cunif true 0 9 3 Stabilizer (mkGen 3%N []) = GState (SStab s) g' /\ st_depth s = 3%N /\ st_zeros s = 3.
Proof. eexists. eexists. split; [vm_compute; reflexivity|]. split; reflexivity. Qed.

(** ** C17 *)
Theorem C17_bound nq n : (nq <= 63)%N -> clamp_sims true ComputationalBasis nq n = Some (N.min n (2 ^ nq)).
Proof. exact (clamp_value nq n). Qed.
Print Assumptions C17_bound.

(** nothing else is ever changed, and the bound is undefined exactly for 64 or more qubits *)
Theorem C17_undefined_iff runSim t nq n :
  clamp_sims runSim t nq n = None <-> runSim = true /\ t = ComputationalBasis /\ (64 <= nq)%N.
Proof. exact (clamp_none runSim t nq n). Qed.
Print Assumptions C17_undefined_iff.
Theorem C17_only_lowers runSim t nq n n' : clamp_sims runSim t nq n = Some n' ->
  (n' <= n)%N /\ (runSim = false \/ t <> ComputationalBasis -> n' = n).
Proof.
  intros E. split; [exact (clamp_le runSim t nq n n' E)|]. intros [->|T]; [|destruct runSim, t; try contradiction];
  cbn in E; try (injection E as <-; reflexivity).
Qed.
Print Assumptions C17_only_lowers.

(** with the bounded number, the generator of a fresh manager returns as often as it may be asked *)
Theorem C17_generator_suffices {MT} (word : MT -> N * MT) unif total anc (e : env stimulus (gen MT)) g n n' :
  uses_generator word unif total anc e -> fair unif -> in_range unif -> anc <= total -> g_used g = [] ->
  clamp_sims true ComputationalBasis (N.of_nat (total - anc)) n = Some n' -> gen_supplies e g n'.
Proof.
  intros U F IR L G C. assert (R : total - anc <= 63).
  { destruct (Nat.le_gt_cases (total - anc) 63); auto. exfalso.
    assert (X : clamp_sims true ComputationalBasis (N.of_nat (total - anc)) n = None) by (apply clamp_none; repeat split; lia). congruence. }
  rewrite clamp_value in C by lia. injection C as <-. apply (supplies word unif e total anc); auto. lia.
Qed.
Print Assumptions C17_generator_suffices.

(** so a run on a fresh manager is not held up by the generator: sequential ... *)
Theorem C17_sequential_run_ends {MT} (word : MT -> N * MT) unif total anc (e : env stimulus (gen MT)) g n c pp fuel pf :
  uses_generator word unif total anc e -> fair unif -> in_range unif -> anc <= total -> g_used g = [] ->
  clamp_sims true ComputationalBasis (N.of_nat (total - anc)) n = Some (maxSims (sim c)) ->
  choose_flow e c = FSequential -> (maxSims (sim c) < N.of_nat fuel)%N ->
  run fuel pf e (fresh c g pp) <> Diverged.
Proof.
  intros U F IR L G C CF Lf. apply c11_terminates; auto. exact (C17_generator_suffices word unif total anc e g n _ U F IR L G C).
Qed.
Print Assumptions C17_sequential_run_ends.
(** ... and parallel, outside the known hang condition (C06) *)
Theorem C17_parallel_run_ends {MT} (word : MT -> N * MT) unif total anc (e : env stimulus (gen MT)) g n c pp s :
  uses_generator word unif total anc e -> fair unif -> in_range unif -> anc <= total -> g_used g = [] ->
  clamp_sims true ComputationalBasis (N.of_nat (total - anc)) n = Some (maxSims (sim c)) ->
  choose_flow e c = FParallel -> sane_sims c -> enough_threads e c -> no_exceptions e c -> ~ hang_condition e c g ->
  reachable e c g pp s -> stuck e s -> p_main s = MReturned.
Proof.
  intros U F IR L G C CF SS ET NE NH. apply pf_returns; auto. exact (C17_generator_suffices word unif total anc e g n _ U F IR L G C).
Qed.
Print Assumptions C17_parallel_run_ends.

(** a number of simulations above 2^r (possible through a setter called after construction) makes the check run forever
    if no simulation refutes and there is no timeout *)
Theorem C17_above_the_bound_diverges {MT} (word : MT -> N * MT) unif total anc (e : env stimulus (gen MT)) c g pp fuel pf :
  uses_generator word unif total anc e -> in_range unif -> total - anc <= 63 -> g_used g = [] ->
  choose_flow e c = FSequential -> runSimulationChecker (exec c) = true -> ctor_throws e c KSim = false -> hasTimeout c = false ->
  (forall x, e_sim e x <> SNotEquivalent) -> (2 ^ N.of_nat (total - anc) < maxSims (sim c))%N ->
  run fuel pf e (fresh c g pp) = Diverged.
Proof.
  intros U IR R G CF RS CT T NR L. eapply run_exhausted; eauto. intros l g' D. exact (supply_limit word unif e total anc g l g' U IR R G D).
Qed.
Print Assumptions C17_above_the_bound_diverges.

Theorem C17_setters_keep_bound_refuted :
  exists (c : config) n, (2 ^ 1 < n)%N /\
    clamp_sims (runSimulationChecker (exec c)) (stateTyp (sim c)) 1 (maxSims (sim c)) = Some (maxSims (sim c)) /\
    (exists m, run 20 (fun _ _ => Diverged) (gen_env 1 0) (fresh c (mkGen 0%N []) 0) = Returned m) /\
    forall fuel pf, run fuel pf (gen_env 1 0) (fresh (setMaxSims n c) (mkGen 0%N []) 0) = Diverged.
Proof.
  exists (demo_cfg false true false false 2 0 false), 3%N. split; [lia|]. split; [vm_compute; reflexivity|]. split.
  - eexists. vm_compute. reflexivity.
  - intros fuel pf. apply (C17_above_the_bound_diverges cword cunif 1 0); auto using cunif_range; try reflexivity.
    + apply cgen_models. lia.
    + lia.
    + discriminate.
Qed.
Print Assumptions C17_setters_keep_bound_refuted.

Example C17_example_environment : uses_generator cword cunif 3 1 (gen_env 3 1) /\
  clamp_sims true ComputationalBasis 2 16 = Some 4%N /\ clamp_sims true ComputationalBasis 2 3 = Some 3%N /\ clamp_sims true ComputationalBasis 70 16 = None.
Proof. split; [apply cgen_models; lia|]. repeat split; vm_compute; reflexivity. Qed.
Example C17_example_run :
  exists m, run 20 (fun _ _ => Diverged) (gen_env 3 1) (fresh (demo_cfg false true false false 4 0 false) (mkGen 0%N []) 0) = Returned m /\
    r_performed (m_res m) = 4%N /\ r_eq (m_res m) = ProbablyEquivalent.
Proof. eexists. split; [vm_compute; reflexivity|]. split; reflexivity. Qed.
