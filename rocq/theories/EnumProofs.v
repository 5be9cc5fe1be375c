(** Proofs about the enumerations and the configuration. *)
From Coq Require Import String Ascii List Bool NArith QArith Lia.
From Verif Require Import Criterion Config EnumSpec.
Import ListNotations.
Open Scope string_scope.

Lemma criterion_eqb_eq a b : criterion_eqb a b = true <-> a = b.
Proof. destruct a, b; cbn; split; intro H; try reflexivity; discriminate H. Qed.
Lemma criterion_eqb_refl a : criterion_eqb a a = true.
Proof. now apply criterion_eqb_eq. Qed.
Lemma criterion_eqb_neq a b : criterion_eqb a b = false <-> a <> b.
Proof. destruct a, b; cbn; split; intro H; try reflexivity; try discriminate;
  try (exfalso; apply H; reflexivity). Qed.

Lemma scheme_eqb_eq a b : scheme_eqb a b = true <-> a = b.
Proof. destruct a, b; cbn; split; intro H; try reflexivity; discriminate H. Qed.

Lemma criterion_roundtrip c : criterion_fromString (criterion_toString c) = c.
Proof. destruct c; reflexivity. Qed.

Lemma criterion_spelling_toString s c : criterion_spelling s c <-> s = criterion_toString c.
Proof.
  split; [intro H; destruct H; reflexivity|].
  intros ->; destruct c; constructor.
Qed.

Ltac split_str :=
  repeat match goal with
  | |- context [?s =? ?k] => destruct (String.eqb_spec s k)
  end; cbn [orb].

Lemma criterion_fromString_spec s c :
  criterion_fromString s = c <->
  criterion_spelling s c \/
  (s = "0" /\ c = NotEquivalent) \/ (s = "1" /\ c = Equivalent) \/
  (s = "2" /\ c = ProbablyEquivalent) \/ (s = "3" /\ c = EquivalentUpToGlobalPhase) \/
  (s = "4" /\ c = EquivalentUpToPhase) \/ (s = "5" /\ c = NoInformation) \/
  (s = "6" /\ c = ProbablyNotEquivalent) \/
  (c = NoInformation /\ (forall d, ~ criterion_spelling s d) /\
   ~ In s ["0"; "1"; "2"; "3"; "4"; "5"; "6"]).
Proof.
  split.
  - intros <-. unfold criterion_fromString.
    repeat match goal with
    | |- context [if ?b then _ else _] => destruct b eqn:?
    end;
    repeat match goal with
    | H : (_ || _) = true |- _ => apply orb_true_iff in H; destruct H as [H|H]; apply String.eqb_eq in H; subst
    | H : (_ || _) = false |- _ => apply orb_false_iff in H; destruct H as [? ?]
    end; try (left; constructor); try (right; tauto).
    do 8 right. split; [reflexivity|].
    repeat match goal with H : (_ =? _) = false |- _ => apply String.eqb_neq in H end.
    split.
    + intros d Hd. apply criterion_spelling_toString in Hd. destruct d; cbn in Hd; contradiction.
    + cbn. intuition congruence.
  - intros [H|H].
    + apply criterion_spelling_toString in H as ->. apply criterion_roundtrip.
    + repeat destruct H as [H|H]; try (destruct H as [-> ->]; reflexivity).
      destruct H as (-> & Hn & Hd). unfold criterion_fromString.
      assert (K : forall k d, criterion_spelling k d -> (s =? k) = false).
      { intros k d Hk. apply String.eqb_neq. intros ->. exact (Hn d Hk). }
      assert (K2 : forall k, In k ["0"; "1"; "2"; "3"; "4"; "5"; "6"] -> (s =? k) = false).
      { intros k Hk. apply String.eqb_neq. intros ->. exact (Hd Hk). }
      rewrite (K _ _ cs_ne), (K _ _ cs_e), (K _ _ cs_ni), (K _ _ cs_pe), (K _ _ cs_gp),
        (K _ _ cs_p), (K _ _ cs_pne).
      rewrite !K2 by (cbn; tauto). reflexivity.
Qed.

Lemma criterion_numeric_exact c :
  criterion_fromString (digit_string (criterion_code c)) = c <->
  ~ In (criterion_code c) [2; 3; 4; 5]%N.
Proof.
  destruct c; cbn; split; intro H; try reflexivity; try discriminate; try tauto; intuition discriminate.
Qed.

Lemma criterion_numeric_wrong :
  exists c, criterion_fromString (digit_string (criterion_code c)) <> c /\
            consideredEquivalent c = false /\
            consideredEquivalent (criterion_fromString (digit_string (criterion_code c))) = true.
Proof. exists NoInformation. vm_compute. repeat split; discriminate. Qed.

Lemma considered_iff c :
  consideredEquivalent c = true <->
  c = Equivalent \/ c = ProbablyEquivalent \/ c = EquivalentUpToGlobalPhase \/ c = EquivalentUpToPhase.
Proof. destruct c; cbn; split; intro H; try reflexivity; try discriminate; try tauto; intuition discriminate. Qed.

(** *** streams *)
Lemma skip_space_app pre s : all_space pre -> skip_space (pre ++ s) = skip_space s.
Proof.
  induction pre as [|c r IH]; cbn; [reflexivity|].
  intros [-> H]. exact (IH H).
Qed.

Fixpoint no_space (s : string) : bool :=
  match s with EmptyString => true | String c r => negb (is_space c) && no_space r end.

Lemma span_token_app t rest :
  no_space t = true -> ends_token rest -> span_token (t ++ rest) = (t, rest).
Proof.
  induction t as [|c r IH]; cbn [append no_space].
  - intros _ H. destruct rest as [|c r]; cbn; [reflexivity|]. cbn in H. now rewrite H.
  - intros H Hr. apply andb_true_iff in H as [Hc Hn]. apply negb_true_iff in Hc.
    cbn [span_token]. rewrite Hc, (IH Hn Hr). reflexivity.
Qed.

Lemma read_token_spec pre t rest :
  all_space pre -> t <> "" -> no_space t = true -> ends_token rest ->
  read_token (pre ++ t ++ rest) = (t, rest).
Proof.
  intros Hp Hne Hn Hr. unfold read_token. rewrite skip_space_app by assumption.
  destruct t as [|c r]; [congruence|].
  assert (Hc : is_space c = false).
  { cbn in Hn. apply andb_true_iff in Hn as [Hc _]. now apply negb_true_iff in Hc. }
  change ((String c r ++ rest)%string) with (String c (r ++ rest)).
  cbn [skip_space]. rewrite Hc.
  change (String c (r ++ rest)) with ((String c r ++ rest)%string).
  now apply span_token_app.
Qed.

Lemma extract_roundtrip {A} (from : string -> A) pre t rest :
  all_space pre -> t <> "" -> no_space t = true -> ends_token rest ->
  stream_extract from (pre ++ t ++ rest) = Extracted (from t) rest.
Proof.
  intros Hp Hne Hn Hr. unfold stream_extract. rewrite read_token_spec by assumption.
  destruct t; [congruence|reflexivity].
Qed.

Lemma criterion_stream pre c rest :
  all_space pre -> ends_token rest ->
  stream_extract criterion_fromString (pre ++ criterion_toString c ++ rest) = Extracted c rest.
Proof.
  intros Hp Hr. rewrite extract_roundtrip by (try assumption; destruct c; cbn; congruence).
  now rewrite criterion_roundtrip.
Qed.

Lemma stream_fail_iff {A} (from : string -> A) s :
  stream_extract from s = ExtractFail <-> all_space s.
Proof.
  unfold stream_extract, read_token. split.
  - induction s as [|c r IH]; cbn [skip_space]; [intros; exact I|].
    destruct (is_space c) eqn:E.
    + intro H. split; [exact E|exact (IH H)].
    + cbn. rewrite E. destruct (span_token r). discriminate.
  - intro H. assert (E : skip_space s = "").
    { induction s as [|c r IH]; cbn; [reflexivity|]. destruct H as [-> H]. exact (IH H). }
    rewrite E. reflexivity.
Qed.

(** *** schemes, state types *)
Lemma scheme_parse s k : scheme_spelling s k -> scheme_fromString s = k.
Proof. intro H; destruct H; reflexivity. Qed.

Lemma scheme_parse_default s : (forall k, ~ scheme_spelling s k) -> scheme_fromString s = Proportional.
Proof.
  intro H.
  assert (K : forall x k, scheme_spelling x k -> (s =? x) = false).
  { intros x k Hk. apply String.eqb_neq. intros ->. exact (H k Hk). }
  unfold scheme_fromString.
  rewrite (K _ _ ss_s), (K _ _ ss_s0), (K _ _ ss_sr), (K _ _ ss_o), (K _ _ ss_o1), (K _ _ ss_on),
    (K _ _ ss_l), (K _ _ ss_l2), (K _ _ ss_g), (K _ _ ss_g3), (K _ _ ss_gc), (K _ _ ss_p), (K _ _ ss_p4).
  reflexivity.
Qed.

Lemma scheme_parse_exact s k : scheme_fromString s = k -> k <> Proportional -> scheme_spelling s k.
Proof.
  intros <- . unfold scheme_fromString.
  repeat match goal with
  | |- context [if ?b then _ else _] => destruct b eqn:?
  end; try congruence; intros _;
  repeat match goal with
  | H : (_ || _) = true |- _ => apply orb_true_iff in H; destruct H as [H|H]
  | H : (_ =? _) = true |- _ => apply String.eqb_eq in H; subst
  end; constructor.
Qed.

Lemma scheme_name k : scheme_spelling (scheme_toString k) k.
Proof. destruct k; constructor. Qed.
Lemma scheme_number k : scheme_spelling (digit_string (scheme_code k)) k.
Proof. destruct k; cbn; constructor. Qed.

Lemma stateType_parse s k : stateType_spelling s k -> stateType_fromString s = k.
Proof. intro H; destruct H; reflexivity. Qed.
Lemma stateType_parse_default s :
  (forall k, ~ stateType_spelling s k) -> stateType_fromString s = ComputationalBasis.
Proof.
  intro H.
  assert (K : forall x k, stateType_spelling x k -> (s =? x) = false).
  { intros x k Hk. apply String.eqb_neq. intros ->. exact (H k Hk). }
  unfold stateType_fromString.
  rewrite (K _ _ st_c), (K _ _ st_c0), (K _ _ st_cc), (K _ _ st_r), (K _ _ st_r1), (K _ _ st_rl),
    (K _ _ st_s), (K _ _ st_s2), (K _ _ st_sg). reflexivity.
Qed.
Lemma stateType_parse_exact s k :
  stateType_fromString s = k -> k <> ComputationalBasis -> stateType_spelling s k.
Proof.
  intros <- . unfold stateType_fromString.
  repeat match goal with
  | |- context [if ?b then _ else _] => destruct b eqn:?
  end; try congruence; intros _;
  repeat match goal with
  | H : (_ || _) = true |- _ => apply orb_true_iff in H; destruct H as [H|H]
  | H : (_ =? _) = true |- _ => apply String.eqb_eq in H; subst
  end; constructor.
Qed.
Lemma stateType_name k : stateType_spelling (stateType_toString k) k.
Proof. destruct k; constructor. Qed.
Lemma stateType_number k : stateType_spelling (digit_string (stateType_code k)) k.
Proof. destruct k; cbn; constructor. Qed.

Lemma scheme_stream pre k rest :
  all_space pre -> ends_token rest ->
  stream_extract scheme_fromString (pre ++ scheme_toString k ++ rest) = Extracted k rest.
Proof.
  intros Hp Hr. rewrite extract_roundtrip by (try assumption; destruct k; cbn; congruence).
  f_equal. apply scheme_parse, scheme_name.
Qed.
Lemma stateType_stream pre k rest :
  all_space pre -> ends_token rest ->
  stream_extract stateType_fromString (pre ++ stateType_toString k ++ rest) = Extracted k rest.
Proof.
  intros Hp Hr. rewrite extract_roundtrip by (try assumption; destruct k; cbn; congruence).
  f_equal. apply stateType_parse, stateType_name.
Qed.

(** *** configuration predicates *)
Lemma anything_iff c : anythingToExecute c = true <-> (0 < num_tasks c)%N.
Proof.
  unfold anythingToExecute, num_tasks.
  destruct (runSimulationChecker (exec c)), (runAlternatingChecker (exec c)),
    (runConstructionChecker (exec c)), (runZXChecker (exec c)); cbn [b2n andb orb];
    rewrite ?orb_true_r, ?orb_false_r, ?N.ltb_lt; split; intro H; try reflexivity; try discriminate; lia.
Qed.

Lemma single_iff c :
  onlySingleTask c = true <->
  num_tasks c = 1%N /\ ~ (runSimulationChecker (exec c) = true /\ maxSims (sim c) = 0%N).
Proof.
  unfold onlySingleTask, num_tasks.
  destruct (runSimulationChecker (exec c)), (runAlternatingChecker (exec c)),
    (runConstructionChecker (exec c)), (runZXChecker (exec c)); cbn [b2n andb orb negb];
    rewrite ?andb_true_r, ?andb_false_r;
    try (destruct (N.eqb_spec (maxSims (sim c)) 1)); split; intro H;
    first [ reflexivity | discriminate
          | split; [lia | intros [A B]; first [discriminate | lia]]
          | exfalso; destruct H as [H1 H2];
            first [ lia | apply H2; split; [reflexivity | lia] ] ].
Qed.

Lemma onlyZX_iff c :
  onlyZXCheckerConfigured c = true <->
  runZXChecker (exec c) = true /\ runAlternatingChecker (exec c) = false /\
  runConstructionChecker (exec c) = false /\ runSimulationChecker (exec c) = false.
Proof.
  unfold onlyZXCheckerConfigured.
  rewrite !andb_true_iff, !negb_true_iff. tauto.
Qed.
Lemma onlySim_iff c :
  onlySimulationCheckerConfigured c = true <->
  runSimulationChecker (exec c) = true /\ runAlternatingChecker (exec c) = false /\
  runConstructionChecker (exec c) = false /\ runZXChecker (exec c) = false.
Proof.
  unfold onlySimulationCheckerConfigured.
  rewrite !andb_true_iff, !negb_true_iff. tauto.
Qed.

Lemma computeMaxSims_bounds hw : (16 <= computeMaxSims hw)%N /\ (hw <= computeMaxSims hw + 2)%N.
Proof. unfold computeMaxSims. destruct (N.ltb_spec hw 2); lia. Qed.

Lemma bindings_default_ok hw :
  (2 <= hw < 2 ^ 32)%N -> bindings_default_max_sims hw = computeMaxSims hw.
Proof.
  intros H. unfold bindings_default_max_sims, computeMaxSims.
  destruct (N.ltb_spec hw 2); [lia|]. f_equal.
  replace (hw + 2 ^ 32 - 2)%N with ((hw - 2) + 1 * 2 ^ 32)%N by lia.
  rewrite N.mod_add by lia. apply N.mod_small. lia.
Qed.
Lemma bindings_default_wraps : bindings_default_max_sims 0 = 4294967294%N /\
  bindings_default_max_sims 1 = 4294967295%N.
Proof. split; vm_compute; reflexivity. Qed.

(** *** the report *)
Lemma scheme_toString_inj a b : scheme_toString a = scheme_toString b -> a = b.
Proof.
  intro H. rewrite <- (scheme_parse _ _ (scheme_name a)), <- (scheme_parse _ _ (scheme_name b)).
  now rewrite H.
Qed.
Lemma stateType_toString_inj a b : stateType_toString a = stateType_toString b -> a = b.
Proof.
  intro H. rewrite <- (stateType_parse _ _ (stateType_name a)), <- (stateType_parse _ _ (stateType_name b)).
  now rewrite H.
Qed.

Definition jfield (k1 k2 : string) (j : json) : option json :=
  match jget k1 j with Some j' => jget k2 j' | None => None end.

Lemma json_app_field c k :
  jfield "application" k (config_json c) =
  assoc k ((if runConstructionChecker (exec c)
      then [("construction", JStr (scheme_toString (constructionScheme (app c))))] else []) ++
     (if runSimulationChecker (exec c)
      then [("simulation", JStr (scheme_toString (simulationScheme (app c))))] else []) ++
     (if runAlternatingChecker (exec c)
      then [("alternating", JStr (scheme_toString (alternatingScheme (app c))))] else []) ++
     (match shown_profile (app c) with Some s => [("profile", JStr s)] | None => [] end)).
Proof.
  unfold shown_profile, config_json, jfield. cbn [jget assoc String.eqb Ascii.eqb Bool.eqb append app].
  cbn.
  destruct (runConstructionChecker (exec c)), (runSimulationChecker (exec c)),
   (runAlternatingChecker (exec c)),
   (scheme_eqb (constructionScheme (app c)) GateCost || scheme_eqb (simulationScheme (app c)) GateCost
     || scheme_eqb (alternatingScheme (app c)) GateCost); reflexivity.
Qed.

Lemma report_sound c d : config_json c = config_json d -> same_report c d.
Proof.
  intro H.
  assert (F : forall a b, jfield a b (config_json c) = jfield a b (config_json d)) by (intros; now rewrite H).
  assert (G : forall a, jget a (config_json c) = jget a (config_json d)) by (intros; now rewrite H).
  pose proof (F "execution" "run_construction_checker") as Hcon. cbn in Hcon. injection Hcon as Hcon.
  pose proof (F "execution" "run_simulation_checker") as Hsim. cbn in Hsim. injection Hsim as Hsim.
  pose proof (F "execution" "run_alternating_checker") as Halt. cbn in Halt. injection Halt as Halt.
  pose proof (F "execution" "run_zx_checker") as Hzx. cbn in Hzx. injection Hzx as Hzx.
  pose proof (F "execution" "parallel") as Hpar. cbn in Hpar. injection Hpar as Hpar.
  pose proof (F "execution" "tolerance") as Htol. cbn in Htol. injection Htol as Htol.
  pose proof (F "execution" "nthreads") as Hnt. cbn in Hnt. injection Hnt as Hnt.
  pose proof (F "execution" "timeout") as Hto. cbn in Hto.
  pose proof (G "optimizations") as Hopt. cbn in Hopt.
  pose proof (G "parameterized") as Hpa. cbn in Hpa.
  pose proof (G "functionality") as Hfun. cbn in Hfun.
  pose proof (G "simulation") as Hsi. cbn in Hsi.
  pose proof (F "application" "construction") as Hac. rewrite !json_app_field in Hac.
  pose proof (F "application" "simulation") as Has. rewrite !json_app_field in Has.
  pose proof (F "application" "alternating") as Haa. rewrite !json_app_field in Haa.
  pose proof (F "application" "profile") as Hap. rewrite !json_app_field in Hap.
  split; try assumption.
  - intro E. rewrite <- Hpar, E in Hnt. exact Hnt.
  - destruct (Qpos (timeout (exec c))), (Qpos (timeout (exec d))); cbn in Hto; try discriminate;
      split; intros; try reflexivity; try discriminate. now injection Hto.
  - destruct (opts c), (opts d). cbn in Hopt. injection Hopt; intros; subst. reflexivity.
  - destruct (par c), (par d). cbn in Hpa. injection Hpa; intros; subst. reflexivity.
  - intro E. rewrite <- Hcon, E in Hac. cbn in Hac. injection Hac as Hac. now apply scheme_toString_inj.
  - intro E. rewrite <- Hcon, <- Hsim, <- Halt, E in Has.
    destruct (runConstructionChecker (exec c)); cbn in Has; injection Has as Has; now apply scheme_toString_inj.
  - intro E. rewrite <- Hcon, <- Hsim, <- Halt, E in Haa.
    destruct (runConstructionChecker (exec c)), (runSimulationChecker (exec c)); cbn in Haa;
      injection Haa as Haa; now apply scheme_toString_inj.
  - rewrite <- Hcon, <- Hsim, <- Halt in Hap.
    destruct (runConstructionChecker (exec c)), (runSimulationChecker (exec c)), (runAlternatingChecker (exec c)),
      (shown_profile (app c)), (shown_profile (app d)); cbn in Hap; try discriminate; try reflexivity;
      injection Hap as Hap; now subst.
  - intro E. rewrite <- Hcon, <- Halt in Hfun.
    assert (E' : runConstructionChecker (exec c) || runAlternatingChecker (exec c) = true)
      by (destruct E as [-> | ->]; auto using orb_true_r).
    rewrite E' in Hfun. cbn in Hfun. destruct (func c), (func d). cbn in Hfun. now injection Hfun; intros; subst.
  - intro E. rewrite <- Hsim, E in Hsi.
    rewrite <- Hcon, <- Halt in Hsi.
    destruct (runConstructionChecker (exec c) || runAlternatingChecker (exec c)); cbn in Hsi;
    destruct (sim c), (sim d); cbn in Hsi; injection Hsi; intros; subst;
    match goal with H : stateType_toString _ = stateType_toString _ |- _ => apply stateType_toString_inj in H; subst end;
    reflexivity.
Qed.

Lemma report_complete c d : same_report c d -> config_json c = config_json d.
Proof.
  intros [Htol Hpar Hnt [Ht1 Ht2] Hcon Hsim Halt Hzx Hopt Hpa Hac Has Haa Hap Hfun Hsi].
  assert (A : forall c, config_json c = JObj
    ([("execution", JObj
    ([("tolerance", JReal (numericalTolerance (exec c)));
      ("parallel", JBool (parallel (exec c)));
      ("nthreads", JNum (if parallel (exec c) then nthreads (exec c) else 1));
      ("run_construction_checker", JBool (runConstructionChecker (exec c)));
      ("run_simulation_checker", JBool (runSimulationChecker (exec c)));
      ("run_alternating_checker", JBool (runAlternatingChecker (exec c)));
      ("run_zx_checker", JBool (runZXChecker (exec c)))] ++
     (if Qpos (timeout (exec c)) then [("timeout", JReal (timeout (exec c)))] else []))) ;
     ("optimizations", JObj
    [("fuse_consecutive_single_qubit_gates", JBool (fuseSingleQubitGates (opts c)));
     ("reconstruct_swaps", JBool (reconstructSWAPs (opts c)));
     ("remove_diagonal_gates_before_measure", JBool (removeDiagonalGatesBeforeMeasure (opts c)));
     ("transform_dynamic_circuit", JBool (transformDynamicCircuit (opts c)));
     ("reorder_operations", JBool (reorderOperations (opts c)));
     ("backpropagate_output_permutation", JBool (backpropagateOutputPermutation (opts c)));
     ("elide_permutations", JBool (elidePermutations (opts c)))]);
     ("application", jobj ((if runConstructionChecker (exec c)
      then [("construction", JStr (scheme_toString (constructionScheme (app c))))] else []) ++
     (if runSimulationChecker (exec c)
      then [("simulation", JStr (scheme_toString (simulationScheme (app c))))] else []) ++
     (if runAlternatingChecker (exec c)
      then [("alternating", JStr (scheme_toString (alternatingScheme (app c))))] else []) ++
     (match shown_profile (app c) with Some s => [("profile", JStr s)] | None => [] end)));
      ("parameterized", JObj [("tolerance", JReal (parameterizedTol (par c)));
     ("additional_instantiations", JNum (nAdditionalInstantiations (par c)))])] ++
      (if runConstructionChecker (exec c) || runAlternatingChecker (exec c) then
        [("functionality", JObj
           [("trace_threshold", JReal (traceThreshold (func c)));
            ("check_partial_equivalence", JBool (checkPartialEquivalence (func c)))])] else []) ++
     (if runSimulationChecker (exec c) then
        [("simulation", JObj
           [("fidelity_threshold", JReal (fidelityThreshold (sim c)));
            ("max_sims", JNum (maxSims (sim c)));
            ("state_type", JStr (stateType_toString (stateTyp (sim c))));
            ("seed", JNum (seed (sim c)));
            ("store_counterexample_input", JBool (storeCEXinput (sim c)));
            ("store_counterexample_output", JBool (storeCEXoutput (sim c)))])] else []))).
  { intro x. unfold config_json, shown_profile.
    destruct (scheme_eqb (constructionScheme (app x)) GateCost || scheme_eqb (simulationScheme (app x)) GateCost
     || scheme_eqb (alternatingScheme (app x)) GateCost); reflexivity. }
  rewrite (A c), (A d). clear A.
  rewrite <- Htol, <- Hpar, <- Hcon, <- Hsim, <- Halt, <- Hzx, <- Hopt, <- Hpa, <- Hap, <- Ht1.
  assert (E1 : (if parallel (exec c) then nthreads (exec c) else 1%N) = (if parallel (exec c) then nthreads (exec d) else 1%N)).
  { destruct (parallel (exec c)); [now rewrite Hnt|reflexivity]. }
  rewrite E1. clear E1.
  assert (E2 : (if Qpos (timeout (exec c)) then [("timeout", JReal (timeout (exec c)))] else []) =
     (if Qpos (timeout (exec c)) then [("timeout", JReal (timeout (exec d)))] else [])).
  { destruct (Qpos (timeout (exec c))); [now rewrite <- Ht2|reflexivity]. }
  rewrite E2. clear E2 Hnt Ht1 Ht2.
  destruct (runConstructionChecker (exec c)), (runSimulationChecker (exec c)), (runAlternatingChecker (exec c));
    cbn [orb]; rewrite ?Hac, ?Has, ?Haa, ?Hfun, ?Hsi by (try reflexivity; auto); reflexivity.
Qed.

Lemma is_space_exact c : is_space c = true <-> In c [" "; "009"; "010"; "011"; "012"; "013"]%char.
Proof.
  split.
  - destruct c as [[] [] [] [] [] [] [] []]; vm_compute; intros H; try discriminate; tauto.
  - intros H. cbn [In] in H. repeat (destruct H as [<-|H]; [reflexivity|]). destruct H.
Qed.
Lemma computeMaxSims_exact hw : computeMaxSims hw = (if hw <=? 18 then 16 else hw - 2)%N.
Proof. unfold computeMaxSims. destruct (N.ltb_spec hw 2), (N.leb_spec hw 18); lia. Qed.
