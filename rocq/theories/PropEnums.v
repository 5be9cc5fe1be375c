(** Properties C23, C24, C25, C26, C27: textual forms and configuration. *)
From Coq Require Import String Ascii List Bool NArith QArith.
From Verif Require Import Criterion Config EnumSpec EnumProofs.
Import ListNotations.
Open Scope string_scope.

(** ** C23 *)
(** printing then parsing gives the criterion back *)
Theorem C23_criterion_roundtrip : forall c : criterion,
  criterion_fromString (criterion_toString c) = c.
Proof. exact criterion_roundtrip. Qed.
Print Assumptions C23_criterion_roundtrip.

(** ... also through streams, inside any white space *)
Theorem C23_criterion_stream_roundtrip : forall (pre : string) (c : criterion) (rest : string),
  all_space pre -> ends_token rest ->
  stream_extract criterion_fromString (pre ++ criterion_toString c ++ rest) = Extracted c rest.
Proof. exact criterion_stream. Qed.
Print Assumptions C23_criterion_stream_roundtrip.

(** white space: exactly space, tab, line feed, vertical tab, form feed, carriage return *)
Theorem C23_white_space : forall c : ascii,
  is_space c = true <-> In c [" "; "009"; "010"; "011"; "012"; "013"]%char.
Proof. exact is_space_exact. Qed.
Print Assumptions C23_white_space.

Example C23_stream_example :
  stream_extract criterion_fromString "  not_equivalent equivalent" = Extracted NotEquivalent " equivalent".
Proof. reflexivity. Qed.

(** the extraction fails iff there is no token *)
Theorem C23_stream_fail : forall s : string,
  stream_extract criterion_fromString s = ExtractFail <-> all_space s.
Proof. exact (stream_fail_iff criterion_fromString). Qed.
Print Assumptions C23_stream_fail.

(** complete description of the parser: documented names, digits, default *)
Theorem C23_parser_exact : forall (s : string) (c : criterion),
  criterion_fromString s = c <->
  criterion_spelling s c \/
  (s = "0" /\ c = NotEquivalent) \/ (s = "1" /\ c = Equivalent) \/
  (s = "2" /\ c = ProbablyEquivalent) \/ (s = "3" /\ c = EquivalentUpToGlobalPhase) \/
  (s = "4" /\ c = EquivalentUpToPhase) \/ (s = "5" /\ c = NoInformation) \/
  (s = "6" /\ c = ProbablyNotEquivalent) \/
  (c = NoInformation /\ (forall d, ~ criterion_spelling s d) /\
   ~ In s ["0"; "1"; "2"; "3"; "4"; "5"; "6"]).
Proof. exact criterion_fromString_spec. Qed.
Print Assumptions C23_parser_exact.

(** exactly the numbers 2..5 are decoded as something else than the enumerator with that value *)
Theorem C23_numeric_codes_exact : forall c : criterion,
  criterion_fromString (digit_string (criterion_code c)) = c <->
  ~ In (criterion_code c) [2; 3; 4; 5]%N.
Proof. exact criterion_numeric_exact. Qed.
Print Assumptions C23_numeric_codes_exact.

(** finding: the numeric form does not round-trip; 'no information' (2) is even read as a
    verdict that is considered equivalent *)
Theorem C23_numeric_roundtrip_refuted :
  exists c, criterion_fromString (digit_string (criterion_code c)) <> c /\
            consideredEquivalent c = false /\
            consideredEquivalent (criterion_fromString (digit_string (criterion_code c))) = true.
Proof. exact criterion_numeric_wrong. Qed.
Print Assumptions C23_numeric_roundtrip_refuted.

(** ** C24 *)
Theorem C24_scheme_parse : forall s k, scheme_spelling s k -> scheme_fromString s = k.
Proof. exact scheme_parse. Qed.
Print Assumptions C24_scheme_parse.
Theorem C24_scheme_default : forall s,
  (forall k, ~ scheme_spelling s k) -> scheme_fromString s = Proportional.
Proof. exact scheme_parse_default. Qed.
Print Assumptions C24_scheme_default.
Theorem C24_scheme_only : forall s k,
  scheme_fromString s = k -> k <> Proportional -> scheme_spelling s k.
Proof. exact scheme_parse_exact. Qed.
Print Assumptions C24_scheme_only.
(** printed names and enum numbers are accepted spellings, hence round-trip *)
Theorem C24_scheme_roundtrip : forall k,
  scheme_fromString (scheme_toString k) = k /\
  scheme_fromString (digit_string (scheme_code k)) = k.
Proof. exact (fun k => conj (scheme_parse _ _ (scheme_name k)) (scheme_parse _ _ (scheme_number k))). Qed.
Print Assumptions C24_scheme_roundtrip.
Theorem C24_scheme_stream_roundtrip : forall (pre : string) (k : scheme) (rest : string),
  all_space pre -> ends_token rest ->
  stream_extract scheme_fromString (pre ++ scheme_toString k ++ rest) = Extracted k rest.
Proof. exact scheme_stream. Qed.
Print Assumptions C24_scheme_stream_roundtrip.
Theorem C24_stateType_parse : forall s k, stateType_spelling s k -> stateType_fromString s = k.
Proof. exact stateType_parse. Qed.
Print Assumptions C24_stateType_parse.
Theorem C24_stateType_default : forall s,
  (forall k, ~ stateType_spelling s k) -> stateType_fromString s = ComputationalBasis.
Proof. exact stateType_parse_default. Qed.
Print Assumptions C24_stateType_default.
Theorem C24_stateType_only : forall s k,
  stateType_fromString s = k -> k <> ComputationalBasis -> stateType_spelling s k.
Proof. exact stateType_parse_exact. Qed.
Print Assumptions C24_stateType_only.
Theorem C24_stateType_roundtrip : forall k,
  stateType_fromString (stateType_toString k) = k /\
  stateType_fromString (digit_string (stateType_code k)) = k.
Proof. exact (fun k => conj (stateType_parse _ _ (stateType_name k)) (stateType_parse _ _ (stateType_number k))). Qed.
Print Assumptions C24_stateType_roundtrip.
Theorem C24_stateType_stream_roundtrip : forall (pre : string) (k : stateType) (rest : string),
  all_space pre -> ends_token rest ->
  stream_extract stateType_fromString (pre ++ stateType_toString k ++ rest) = Extracted k rest.
Proof. exact stateType_stream. Qed.
Print Assumptions C24_stateType_stream_roundtrip.
Example C24_default_example : forall k, ~ scheme_spelling "foo" k.
Proof. intros k H; inversion H. Qed.

(** ** C25 *)
Theorem C25_considered_equivalent_exact : forall c : criterion,
  consideredEquivalent c = true <->
  c = Equivalent \/ c = ProbablyEquivalent \/ c = EquivalentUpToGlobalPhase \/ c = EquivalentUpToPhase.
Proof. exact considered_iff. Qed.
Print Assumptions C25_considered_equivalent_exact.

(** ** C26 *)
Theorem C26_anything_to_execute : forall c : config,
  anythingToExecute c = true <-> (0 < num_tasks c)%N.
Proof. exact anything_iff. Qed.
Print Assumptions C26_anything_to_execute.
(** a single task is recognised exactly, except that an enabled simulation checker with
    max_sims = 0 hides it *)
Theorem C26_only_single_task : forall c : config,
  onlySingleTask c = true <->
  num_tasks c = 1%N /\ ~ (runSimulationChecker (exec c) = true /\ maxSims (sim c) = 0%N).
Proof. exact single_iff. Qed.
Print Assumptions C26_only_single_task.
Theorem C26_only_zx : forall c : config,
  onlyZXCheckerConfigured c = true <->
  runZXChecker (exec c) = true /\ runAlternatingChecker (exec c) = false /\
  runConstructionChecker (exec c) = false /\ runSimulationChecker (exec c) = false.
Proof. exact onlyZX_iff. Qed.
Print Assumptions C26_only_zx.
Theorem C26_only_simulation : forall c : config,
  onlySimulationCheckerConfigured c = true <->
  runSimulationChecker (exec c) = true /\ runAlternatingChecker (exec c) = false /\
  runConstructionChecker (exec c) = false /\ runZXChecker (exec c) = false.
Proof. exact onlySim_iff. Qed.
Print Assumptions C26_only_simulation.
(** default number of simulations: at least 16 and enough to fill all hardware threads not used
    by the two other default checkers *)
Theorem C26_default_max_sims : forall hw : N,
  computeMaxSims hw = (if hw <=? 18 then 16 else hw - 2)%N.
Proof. exact computeMaxSims_exact. Qed.
Print Assumptions C26_default_max_sims.
(** the Python default agrees with it whenever there are at least two hardware threads ... *)
Theorem C26_bindings_default_agrees : forall hw : N,
  (2 <= hw < 2 ^ 32)%N -> bindings_default_max_sims hw = computeMaxSims hw.
Proof. exact bindings_default_ok. Qed.
Print Assumptions C26_bindings_default_agrees.
Example C26_bindings_default_example : (2 <= 8 < 2 ^ 32)%N /\ bindings_default_max_sims 8 = 16%N.
Proof. vm_compute. repeat split; discriminate. Qed.
(** ... and wraps around to about 4.29e9 simulations when the hardware concurrency is 0 or 1 *)
Theorem C26_bindings_default_agrees_refuted :
  bindings_default_max_sims 0 = 4294967294%N /\ bindings_default_max_sims 1 = 4294967295%N.
Proof. exact bindings_default_wraps. Qed.
Print Assumptions C26_bindings_default_agrees_refuted.
Example C26_default_config_runs :
  let c := default_config 8 (1 # 1000) in
  anythingToExecute c = true /\ onlySingleTask c = false /\ num_tasks c = 18%N.
Proof. repeat split. Qed.

(** ** C27 *)
(** two configurations have the same report iff they agree on everything the report must determine *)
Theorem C27_report_determines : forall c d : config, config_json c = config_json d -> same_report c d.
Proof. exact report_sound. Qed.
Print Assumptions C27_report_determines.
Theorem C27_report_only_depends : forall c d : config, same_report c d -> config_json c = config_json d.
Proof. exact report_complete. Qed.
Print Assumptions C27_report_only_depends.
(** non-vacuity: two configurations that differ in a setting of a disabled checker only *)
Example C27_example :
  let c := setSimulationChecker false (default_config 8 (1 # 1000)) in
  config_json c = config_json (upd_sim (fun s => mkSimulation 0 7 Stabilizer 3 true true) c) /\
  config_json c <> config_json (setNThreads 3 c).
Proof. split; [reflexivity | intro H; apply report_sound in H; destruct H as [_ _ H _ _ _ _ _ _ _ _ _ _ _ _ _]; discriminate (H eq_refl)]. Qed.
