From Coq Require Import List Bool NArith Arith Lia QArith.
From Verif Require Import Criterion Config SeqFlow SeqSpec SeqProofs SeqProofs3 StateGen StateGenSpec StateGenProofs.
Import ListNotations.
Local Close Scope Q_scope.

(** ** C17 *)
Lemma clamp_value nq n : (nq <= 63)%N -> clamp_sims true ComputationalBasis nq n = Some (N.min n (2 ^ nq)).
Proof.
  intros L. unfold clamp_sims. rewrite N.shiftl_1_l. destruct (N.leb_spec 64 nq); [lia|]. destruct (N.leb_spec nq 63); [|lia].
  cbn [andb]. destruct (N.ltb_spec (2 ^ nq) n); f_equal; lia.
Qed.
Lemma clamp_none runSim t nq n : clamp_sims runSim t nq n = None <-> runSim = true /\ t = ComputationalBasis /\ (64 <= nq)%N.
Proof.
  unfold clamp_sims. destruct runSim, t; try (split; [discriminate|intros (?&?&?); discriminate]).
  destruct (N.leb_spec 64 nq); split; auto; try discriminate. intros (_&_&?). lia.
Qed.
Lemma clamp_le runSim t nq n n' : clamp_sims runSim t nq n = Some n' -> (n' <= n)%N.
Proof.
  unfold clamp_sims. destruct runSim, t; try (intros E; injection E as <-; lia).
  destruct (N.leb 64 nq); [discriminate|]. destruct (N.leb nq 63); cbn [andb]; [|intros E; injection E as <-; lia].
  destruct (N.ltb_spec (N.shiftl 1 nq) n); intros E; injection E as <-; [now apply N.lt_le_incl|apply N.le_refl].
Qed.

Section Supply.
Context {MT : Type} (word : MT -> N * MT) (unif : N -> MT -> N * MT).
Notation gen := (gen MT).

Lemma draws_stimuli (e : env stimulus gen) total anc g l g' : uses_generator word unif total anc e ->
  draws e g l g' -> stimuli word unif (e_ndebug e) total anc ComputationalBasis g l g'.
Proof. intros U D. induction D; [constructor|]. apply U in H as (fuel & E). econstructor; eauto. Qed.

Lemma supplies (e : env stimulus gen) total anc g n : uses_generator word unif total anc e -> fair unif -> in_range unif ->
  total - anc <= 63 -> anc <= total -> g_used g = [] -> (n <= 2 ^ N.of_nat (total - anc))%N -> gen_supplies e g n.
Proof.
  intros U F IR R L E Ln l g' D Ll. pose proof (draws_stimuli _ _ _ _ _ _ U D) as S.
  destruct (used_ok_kept _ _ _ _ _ _ _ _ IR R S) as (UO & Lu). { split; rewrite E; [constructor|intros ? []]. }
  rewrite E in Lu. cbn in Lu.
  destruct (generate_returns word unif (e_ndebug e) total anc g') as (fuel & s & g2 & EE); auto.
  { intros A. destruct UO as (ND & BD). apply (full_iff _ _ ND BD) in A. lia. }
  intros N. assert (X : e_gen e g' = Some (s, g2)) by (apply U; eauto). congruence.
Qed.

Lemma supply_limit (e : env stimulus gen) total anc g l g' : uses_generator word unif total anc e -> in_range unif ->
  total - anc <= 63 -> g_used g = [] -> draws e g l g' -> (N.of_nat (length l) <= 2 ^ N.of_nat (total - anc))%N.
Proof. intros U IR R E D. eapply stimuli_count; eauto using draws_stimuli. Qed.
End Supply.

Section Exhaust.
Context {Stim Gen : Type}.
Lemma simLoop_exhausted fuel : forall (e : env Stim Gen) c t q s r g (k : N), hasTimeout c = false ->
  (forall x, e_sim e x <> SNotEquivalent) -> (forall l g', draws e g l g' -> (N.of_nat (length l) <= k)%N) ->
  (r_performed r + k < maxSims (sim c))%N -> simLoop fuel e c t q s r g = LDiverged.
Proof.
  induction fuel as [|f IH]; intros e c t q s r g k T NR D L; [reflexivity|]. cbn [simLoop].
  unfold simulationsFinished. destruct (N.eqb_spec (r_performed r) (maxSims (sim c))); [lia|].
  assert (FI : forall t, fired e c t = false). { intros t'. unfold fired. now rewrite T. }
  rewrite FI. assert (II : forall t, interrupted e c t = false). { intros t'. unfold interrupted. rewrite FI. reflexivity. }
  rewrite II. destruct (e_gen e g) as [[st g1]|] eqn:G; [|reflexivity].
  assert (K : (1 <= k)%N). { specialize (D [st] g1 (draws_cons e _ _ _ _ _ G (draws_nil e _))). cbn in D. lia. }
  assert (X : forall q0 s0 t0 r0, r_performed r0 = (r_performed r + 1)%N -> simLoop f e c t0 q0 s0 r0 g1 = LDiverged).
  { intros q0 s0 t0 r0 P. apply (IH e c t0 q0 s0 r0 g1 (k - 1)%N); auto.
    - intros l g' Dl. specialize (D (st :: l) g' (draws_cons e _ _ _ _ _ G Dl)). cbn in D. lia.
    - lia. }
  pose proof (NR st) as NRs. destruct (e_sim e st); cbn [scrit]; try contradiction; apply X; reflexivity.
Qed.

Lemma run_exhausted fuel pf (e : env Stim Gen) c g pp k : choose_flow e c = FSequential -> runSimulationChecker (exec c) = true ->
  ctor_throws e c KSim = false -> hasTimeout c = false -> (forall x, e_sim e x <> SNotEquivalent) ->
  (forall l g', draws e g l g' -> (N.of_nat (length l) <= k)%N) -> (k < maxSims (sim c))%N ->
  run fuel pf e (fresh c g pp) = Diverged.
Proof.
  intros CF RS CT T NR D L. unfold run. cbn [m_cfg fresh]. rewrite CF. unfold checkSequential, seqSim. cbn [start_run m_cfg fresh].
  rewrite RS. cbn [negb]. rewrite CT. rewrite (simLoop_exhausted fuel e c _ _ _ _ _ k); auto.
Qed.
End Exhaust.

(** ** C20 *)
Section Shapes.
Context {MT : Type} (word : MT -> N * MT) (unif : N -> MT -> N * MT).
Notation drawn := (drawn MT unif).

Lemma words_length n m : length (fst (words MT word n m)) = n.
Proof. revert m; induction n; intros m; cbn; auto. destruct (word m) as [w m1]. specialize (IHn m1). destruct (words MT word n m1). cbn in *. auto. Qed.

Lemma large_shape0 nd fuel total anc g : 64 <= total - anc ->
  let ws := fst (words MT word ((total - anc + 63) / 64) (g_mt g)) in
  exists bs, generate MT word unif nd fuel total anc ComputationalBasis g
     = GState (SBits bs) (mkGen (snd (words MT word ((total - anc + 63) / 64) (g_mt g))) (g_used g)) /\
   length bs = total /\
   (forall i, i < total - anc -> i / 64 < length ws /\ nth i bs false = N.testbit (nth (i / 64) ws 0%N) (N.of_nat (i mod 64))) /\
   (forall i, total - anc <= i -> nth i bs false = false).
Proof.
  intros R ws. cbn [generate]. unfold genComputational. destruct (Nat.ltb_spec total anc); [lia|].
  destruct (Nat.leb_spec (total - anc) 63); [lia|]. unfold ws.
  pose proof (words_length ((total - anc + 63) / 64) (g_mt g)) as WL.
  destruct (words MT word ((total - anc + 63) / 64) (g_mt g)) as [ws' m'] eqn:W. cbn [fst snd mapg] in *. clear ws.
  destruct (fill_spec total (total - anc) (fun i => N.testbit (nth (i / 64) ws' 0%N) (N.of_nat (i mod 64)))) as [FL FN]; [lia|].
  eexists. split; [reflexivity|]. split; [exact FL|]. split.
  - intros i Li. split.
    + rewrite WL. apply Nat.div_lt_upper_bound; [lia|].
      pose proof (Nat.div_mod (total - anc + 63) 64 ltac:(lia)). pose proof (Nat.mod_upper_bound (total - anc + 63) 64 ltac:(lia)). lia.
    + rewrite FN. destruct (Nat.ltb_spec i (total - anc)); [auto|lia].
  - intros i Li. rewrite FN. destruct (Nat.ltb_spec i (total - anc)); [lia|auto].
Qed.

(** a word with given bits *)
Fixpoint word_of (n : nat) (f : nat -> bool) : N :=
  match n with O => 0%N | S k => ((if f O then 1 else 0) + 2 * word_of k (fun i => f (S i)))%N end.
Lemma word_of_spec n f : (word_of n f < 2 ^ N.of_nat n)%N /\ forall i, i < n -> N.testbit (word_of n f) (N.of_nat i) = f i.
Proof.
  revert f; induction n as [|n IH]; intros f; cbn [word_of]; [split; [cbn; lia|intros; lia]|].
  destruct (IH (fun i => f (S i))) as [B T]. split.
  - rewrite Nat2N.inj_succ, N.pow_succ_r'. destruct (f 0); lia.
  - intros [|i] L.
    + destruct (f 0); cbn [N.of_nat]; [rewrite N.add_comm; apply N.testbit_odd_0|rewrite N.add_0_l; apply N.testbit_even_0].
    + rewrite Nat2N.inj_succ. destruct (f 0).
      * rewrite N.add_comm, N.testbit_odd_succ; [apply T; lia|lia].
      * rewrite N.add_0_l, N.testbit_even_succ; [apply T; lia|lia].
Qed.

Lemma large_onto0 total anc (target : list bool) : 64 <= total - anc -> length target = total - anc ->
  exists ws, length ws = (total - anc + 63) / 64 /\ Forall (fun w => (w < 2 ^ 64)%N) ws /\
    forall nd fuel g, fst (words MT word ((total - anc + 63) / 64) (g_mt g)) = ws ->
      exists g', generate MT word unif nd fuel total anc ComputationalBasis g = GState (SBits (target ++ repeat false anc)) g'.
Proof.
  intros R L. set (nr := (total - anc + 63) / 64).
  exists (map (fun j => word_of 64 (fun i => nth (64 * j + i) target false)) (seq 0 nr)).
  split; [now rewrite map_length, seq_length|]. split.
  { apply Forall_forall. intros w I. apply in_map_iff in I as (j & <- & _). apply (word_of_spec 64). }
  intros nd fuel g W. destruct (large_shape0 nd fuel total anc g R) as (bs & E & BL & A & B). fold nr in E, A. rewrite E.
  eexists. f_equal. f_equal. apply (nth_ext _ _ false false).
  - rewrite BL, app_length, repeat_length. lia.
  - intros i Li. destruct (Nat.lt_ge_cases i (total - anc)) as [Q|Q].
    + destruct (A i Q) as [WL ->]. rewrite app_nth1; [|lia]. rewrite W in *. rewrite map_length, seq_length in WL.
      rewrite (nth_indep _ 0%N (word_of 64 (fun i => nth (64 * 0 + i) target false))); [|rewrite map_length, seq_length; auto].
      rewrite (map_nth (fun j => word_of 64 (fun i => nth (64 * j + i) target false)) (seq 0 nr) 0 (i / 64)), seq_nth; auto.
      destruct (word_of_spec 64 (fun i0 => nth (64 * (0 + i / 64) + i0) target false)) as [_ T].
      rewrite T; [|apply Nat.mod_upper_bound; lia]. f_equal. rewrite Nat.add_0_l. symmetry. apply Nat.div_mod. lia.
    + rewrite B; auto. rewrite app_nth2; [|lia]. symmetry. apply nth_repeat_false.
Qed.

Lemma words_spec n : forall m, snd (words MT word n m) = Nat.iter n (fun m => snd (word m)) m /\
  forall i, i < n -> nth i (fst (words MT word n m)) 0%N = fst (word (Nat.iter i (fun m => snd (word m)) m)).
Proof.
  induction n as [|n IH]; intros m; cbn [words]; [split; [reflexivity|intros; lia]|].
  destruct (word m) as [w m1] eqn:E. destruct (IH m1) as [A B]. destruct (words MT word n m1) as [ws m2]. cbn [fst snd] in *.
  assert (X : forall k, Nat.iter k (fun m => snd (word m)) m1 = Nat.iter (S k) (fun m => snd (word m)) m).
  { intros k. induction k as [|k IHk]; [cbn; now rewrite E|]. cbn [Nat.iter nat_rect] in *. unfold Nat.iter in *. cbn. now rewrite IHk. }
  split; [now rewrite A, X|]. intros [|i] Li; [cbn; now rewrite E|]. cbn [nth]. rewrite B by lia. now rewrite X.
Qed.
Lemma large_shape nd fuel total anc g : 64 <= total - anc ->
  let after n := Nat.iter n (fun m => snd (word m)) (g_mt g) in
  exists bs, generate MT word unif nd fuel total anc ComputationalBasis g = GState (SBits bs) (mkGen (after ((total - anc + 63) / 64)) (g_used g)) /\
   length bs = total /\
   (forall i, i < total - anc -> i / 64 < (total - anc + 63) / 64 /\ nth i bs false = N.testbit (fst (word (after (i / 64)))) (N.of_nat (i mod 64))) /\
   (forall i, total - anc <= i -> nth i bs false = false).
Proof.
  intros R after. destruct (large_shape0 nd fuel total anc g R) as (bs & E & L & A & B). destruct (words_spec ((total - anc + 63) / 64) (g_mt g)) as [W1 W2].
  exists bs. rewrite E, W1. split; [reflexivity|]. split; [exact L|]. split; [|exact B]. intros i Li. destruct (A i Li) as [A1 A2].
  rewrite words_length in A1. split; [exact A1|]. rewrite A2, W2; auto.
Qed.
Lemma large_onto total anc (target : list bool) : 64 <= total - anc -> length target = total - anc ->
  exists ws, length ws = (total - anc + 63) / 64 /\ Forall (fun w => (w < 2 ^ 64)%N) ws /\
    forall nd fuel g, (forall j, j < length ws -> fst (word (Nat.iter j (fun m => snd (word m)) (g_mt g))) = nth j ws 0%N) ->
      exists g', generate MT word unif nd fuel total anc ComputationalBasis g = GState (SBits (target ++ repeat false anc)) g'.
Proof.
  intros R L. destruct (large_onto0 total anc target R L) as (ws & A & B & D). exists ws. split; [exact A|]. split; [exact B|].
  intros nd fuel g H. apply D. apply (nth_ext _ _ 0%N 0%N); rewrite words_length; [auto|]. intros i Li.
  rewrite (proj2 (words_spec _ _)) by exact Li. apply H. now rewrite A.
Qed.

Lemma bases_state n : forall m, snd (bases MT unif n m) = engine MT unif n 5 m.
Proof.
  induction n as [|n IH]; intros m; cbn [bases StateGen.engine]; [reflexivity|]. destruct (unif 5 m) as [d m1]. specialize (IH m1).
  destruct (bases MT unif n m1). exact IH.
Qed.
Lemma bases_spec n : forall m, length (fst (bases MT unif n m)) = n /\
  forall i, i < n -> nth i (fst (bases MT unif n m)) Bzero = bstate_of (drawn i 5 m).
Proof.
  induction n as [|n IH]; intros m; cbn [bases]; [split; [auto|intros; lia]|].
  destruct (unif 5 m) as [d m1] eqn:U. destruct (IH m1) as [L A]. destruct (bases MT unif n m1) as [bs m2]. cbn [fst] in *.
  split; [cbn; auto|]. intros [|i] Li; cbn [nth StateGen.drawn]; rewrite U; cbn; auto. apply A. lia.
Qed.

Lemma local_shape nd fuel total anc g : anc <= total ->
  exists bs g', generate MT word unif nd fuel total anc Random1QBasis g = GState (SBases bs) g' /\ g_used g' = g_used g /\ g_mt g' = engine MT unif (total - anc) 5 (g_mt g) /\
    length bs = total /\
    (forall i, i < total - anc -> nth i bs Bzero = bstate_of (drawn i 5 (g_mt g))) /\
    (forall i, total - anc <= i -> nth i bs Bzero = Bzero).
Proof.
  intros L. cbn [generate]. unfold gen1Q. destruct (Nat.ltb_spec total anc); [lia|].
  destruct (bases_spec (total - anc) (g_mt g)) as [BL BN]. pose proof (bases_state (total - anc) (g_mt g)) as BS. destruct (bases MT unif (total - anc) (g_mt g)) as [bs m']. cbn [fst snd mapg] in *.
  eexists. eexists. split; [reflexivity|]. split; [reflexivity|]. split; [exact BS|]. split; [rewrite app_length, repeat_length; lia|]. split.
  - intros i Li. rewrite app_nth1; [|lia]. auto.
  - intros i Li. rewrite app_nth2; [|lia].
    assert (X : forall j n, nth j (repeat Bzero n) Bzero = Bzero) by (intros j n; revert j; induction n; intros [|j]; cbn; auto). apply X.
Qed.

Lemma bstate_onto b : exists n, (n <= 5)%N /\ bstate_of n = b /\ forall n', (n' <= 5)%N -> bstate_of n' = b -> n' = n.
Proof.
  destruct b; [exists 0%N|exists 1%N|exists 2%N|exists 3%N|exists 4%N|exists 5%N]; (split; [lia|split; [reflexivity|]]);
  intros n' L E; (assert (n' = 0 \/ n' = 1 \/ n' = 2 \/ n' = 3 \/ n' = 4 \/ n' = 5)%N as [->|[->|[->|[->|[->| ->]]]]] by lia);
  try reflexivity; discriminate.
Qed.

Lemma round_log2_spec r : (0 < r)%N -> (r * r < 2 ^ (2 * round_log2 r + 1))%N /\ (2 ^ (2 * round_log2 r) <= 2 * (r * r))%N.
Proof.
  intros P. unfold round_log2. rewrite N.shiftl_1_l. pose proof (N.log2_spec r P) as [A B]. set (l := N.log2 r) in *.
  rewrite N.pow_succ_r' in B. set (p := (2 ^ l)%N) in *.
  assert (PP : (2 ^ (2 * l) = p * p)%N). { replace (2 * l)%N with (l + l)%N by lia. rewrite N.pow_add_r. reflexivity. }
  assert (P1 : (2 ^ (2 * l + 1) = 2 * (p * p))%N). { rewrite N.add_1_r, N.pow_succ_r', PP. reflexivity. }
  assert (S1 : (p * p <= r * r)%N) by (apply N.mul_le_mono; lia).
  assert (S2 : (r * r < (2 * p) * (2 * p))%N) by (apply N.mul_lt_mono; lia).
  destruct (N.leb_spec (2 ^ (2 * l + 1)) (r * r)) as [Q|Q].
  - replace (2 * (l + 1) + 1)%N with (N.succ (N.succ (2 * l + 1))) by lia.
    replace (2 * (l + 1))%N with (N.succ (2 * l + 1)) by lia. rewrite !N.pow_succ_r', P1 in *. nia.
  - rewrite P1 in *. rewrite PP. nia.
Qed.

Lemma stabilizer_shape nd fuel total anc g : anc < total ->
  exists s g', generate MT word unif nd fuel total anc Stabilizer g = GState (SStab s) g' /\ g_used g' = g_used g /\ g_mt g' = snd (word (g_mt g)) /\
    st_qubits s = total - anc /\ st_qubits s + st_zeros s = total /\ st_seed s = fst (word (g_mt g)) /\ st_depth s = round_log2 (N.of_nat (total - anc)).
Proof.
  intros L. cbn [generate]. unfold genStabilizer. destruct (Nat.ltb_spec total anc); [lia|].
  destruct (Nat.eqb_spec (total - anc) 0); [lia|]. destruct (word (g_mt g)) as [s m']. cbn [mapg].
  eexists. eexists. split; [reflexivity|]. cbn. rewrite seq_length. repeat split; lia.
Qed.
Lemma stabilizer_undefined nd fuel total anc g : total <= anc -> generate MT word unif nd fuel total anc Stabilizer g = GUndefined.
Proof.
  intros L. cbn [generate]. unfold genStabilizer. destruct (Nat.ltb_spec total anc); [reflexivity|].
  destruct (Nat.eqb_spec (total - anc) 0); [reflexivity|lia].
Qed.
End Shapes.

(** ** a counter as random source *)
Lemma cunif_range : in_range cunif.
Proof. intros hi m. cbn. pose proof (N.mod_upper_bound m (hi + 1) ltac:(lia)). generalize dependent (m mod (hi + 1))%N. lia. Qed.
Lemma cunif_drawn n hi m : drawn N cunif n hi m = ((m + N.of_nat n) mod (hi + 1))%N.
Proof. revert m; induction n; intros m; cbn [drawn cunif fst snd]; [f_equal; lia|]. rewrite IHn. f_equal. lia. Qed.
Lemma cunif_fair : fair cunif.
Proof.
  intros hi m v L. pose proof (N.mod_upper_bound m (hi + 1) ltac:(lia)) as U. pose proof (N.div_mod m (hi + 1) ltac:(lia)) as D.
  exists (N.to_nat (v + (hi + 1) - m mod (hi + 1))). rewrite cunif_drawn, N2Nat.id.
  generalize dependent (m mod (hi + 1))%N. generalize (m / (hi + 1))%N. intros a b U D.
  replace (m + (v + (hi + 1) - b))%N with (v + (a + 1) * (hi + 1))%N by nia.
  rewrite N.mod_add by lia. apply N.mod_small. lia.
Qed.

Lemma cgen_models total anc : total - anc <= 63 -> uses_generator cword cunif total anc (gen_env total anc).
Proof.
  intros R g s g'. cbn [e_gen gen_env e_ndebug]. unfold cgen. split.
  - destruct (generate _ _ _ _ _ _ _ _ _) eqn:E; try discriminate. intros Q. injection Q as <- <-. eauto.
  - intros (fuel & E). cbn [generate] in *.
    destruct (genComputational N cword cunif true fuel total anc g) as [bs g1| | |] eqn:G; try discriminate. cbn in E. injection E as <- <-.
    apply genC_state in G; auto. destruct G as (L & Y & n & v & Ln & D & NI & K & B & GG).
    assert (LT : n < N.to_nat (2 ^ N.of_nat (total - anc))).
    { destruct (Nat.lt_ge_cases n (N.to_nat (2 ^ N.of_nat (total - anc)))) as [Q|Q]; auto. exfalso. apply NI. rewrite <- D.
      pose proof (pow_pos (total - anc)) as PP.
      specialize (K (n - N.to_nat (2 ^ N.of_nat (total - anc))) ltac:(lia)). rewrite cunif_drawn in *.
      replace (2 ^ N.of_nat (total - anc) - 1 + 1)%N with (2 ^ N.of_nat (total - anc))%N in * by lia.
      replace (g_mt g + N.of_nat n)%N with (g_mt g + N.of_nat (n - N.to_nat (2 ^ N.of_nat (total - anc))) + 1 * 2 ^ N.of_nat (total - anc))%N by lia.
      rewrite N.mod_add by lia. exact K. }
    assert (G2 : genComputational N cword cunif true (N.to_nat (2 ^ N.of_nat (total - anc))) total anc g = GState bs g1).
    { apply genC_state; auto. split; auto. split; auto. exists n, v. auto 10. }
    rewrite G2. reflexivity.
Qed.
