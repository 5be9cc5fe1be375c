{
 "claims": [
  {
   "property": "C01",
   "status": "proved",
   "theorems": [
    "C01_verdict_source",
    "C01_sound"
   ],
   "note": ""
  },
  {
   "property": "C02",
   "status": "proved",
   "theorems": [
    "C02_parallel_verdict_source",
    "C02_parallel_sound"
   ],
   "note": ""
  },
  {
   "property": "C03",
   "status": "proved",
   "theorems": [
    "C03_parallel_probably_equivalent",
    "C03_parallel_probably_not_equivalent",
    "C03_sequential_probably_equivalent",
    "C03_sequential_probably_not_equivalent",
    "C03_sequential_all_agree_refuted"
   ],
   "note": ""
  },
  {
   "property": "C04",
   "status": "proved",
   "theorems": [
    "C04_parallel_counters",
    "C04_parallel_only_simulations",
    "C04_sequential_counters",
    "C04_sequential_only_simulations"
   ],
   "note": ""
  },
  {
   "property": "C05",
   "status": "proved",
   "theorems": [
    "C05_parallel_counterexample",
    "C05_parallel_counterexample_kept",
    "C05_sequential_counterexample",
    "C05_stale_counterexample_refuted"
   ],
   "note": ""
  },
  {
   "property": "C06",
   "status": "proved",
   "theorems": [
    "C06_schedules_bounded",
    "C06_returns",
    "C06_hangs",
    "C06_waits_only_if",
    "C06_always_returns_refuted"
   ],
   "note": "The model of the parallel flow treats the result queue as atomic; the lost wake-up of the queue itself (C22) is an additional way to hang."
  },
  {
   "property": "C07",
   "status": "proved",
   "theorems": [
    "C07_in_bounds",
    "C07_out_of_bounds"
   ],
   "note": ""
  },
  {
   "property": "C08",
   "status": "proved",
   "theorems": [
    "C08_cancellation_reaches_everyone",
    "C08_no_new_run_after_decision"
   ],
   "note": ""
  },
  {
   "property": "C09",
   "status": "proved",
   "theorems": [
    "C09_cancelled_or_complete",
    "C09_fresh_cancelled_no_information"
   ],
   "note": ""
  },
  {
   "property": "C10",
   "status": "proved",
   "theorems": [
    "C10_sequential_terminated_exactly",
    "C10_sequential_no_timeout",
    "C10_sequential_exceptions_with_timeout",
    "C10_symbolic_terminated_exactly",
    "C10_always_joined_refuted"
   ],
   "note": ""
  },
  {
   "property": "C11",
   "status": "proved",
   "theorems": [
    "C11_terminates_on_fresh",
    "C11_fuel_irrelevant",
    "C11_rerun_without_reset",
    "C11_rerun_with_fewer_simulations_diverges"
   ],
   "note": ""
  },
  {
   "property": "C12",
   "status": "proved",
   "theorems": [
    "C12_reset_is_fresh",
    "C12_preprocessing_time_is_passive",
    "C12_counters_accumulate_without_reset"
   ],
   "note": ""
  },
  {
   "property": "C13",
   "status": "proved",
   "theorems": [
    "C13_nothing_to_execute",
    "C13_both_empty"
   ],
   "note": ""
  },
  {
   "property": "C14",
   "status": "proved",
   "theorems": [
    "C14_alternating_decides",
    "C14_construction_decides"
   ],
   "note": ""
  },
  {
   "property": "C15",
   "status": "proved",
   "theorems": [
    "C15_definitive_without_zx_disagreement",
    "C15_schedule_independence_refuted"
   ],
   "note": ""
  },
  {
   "property": "C16",
   "status": "proved",
   "theorems": [
    "C16_fallback",
    "C16_exact_checker_survives",
    "C16_constructor"
   ],
   "note": ""
  },
  {
   "property": "C17",
   "status": "proved",
   "theorems": [
    "C17_bound",
    "C17_undefined_iff",
    "C17_only_lowers",
    "C17_generator_suffices",
    "C17_sequential_run_ends",
    "C17_parallel_run_ends",
    "C17_above_the_bound_diverges",
    "C17_setters_keep_bound_refuted"
   ],
   "note": ""
  },
  {
   "property": "C18",
   "status": "proved",
   "theorems": [
    "C18_symbolic_verdicts"
   ],
   "note": ""
  },
  {
   "property": "C19",
   "status": "proved",
   "theorems": [
    "C19_stimulus_shape",
    "C19_pairwise_distinct",
    "C19_at_most_all_states",
    "C19_all_states_are_drawn",
    "C19_first_unused_value",
    "C19_never_returns_iff_exhausted",
    "C19_aborts_iff_exhausted",
    "C19_returns_until_exhausted",
    "C19_bookkeeping",
    "C19_seed_determines_stimuli",
    "C19_set_seed_reproduces",
    "C19_seed_zero_reproducible_refuted",
    "C19_seed_fixes_every_run_refuted"
   ],
   "note": ""
  },
  {
   "property": "C20",
   "status": "proved",
   "theorems": [
    "C20_large_stimuli",
    "C20_large_stimuli_onto",
    "C20_local_stimuli",
    "C20_local_states_one_to_one",
    "C20_global_stimuli",
    "C20_global_stimuli_defined_refuted"
   ],
   "note": ""
  },
  {
   "property": "C21",
   "status": "proved",
   "theorems": [
    "C21_linearisable",
    "C21_one_consumer_fifo",
    "C21_no_deadlock",
    "C21_bounded_work"
   ],
   "note": ""
  },
  {
   "property": "C22",
   "status": "proved",
   "theorems": [
    "C22_timed_pop_gets_element",
    "C22_timed_pop_progress",
    "C22_lost_wakeup_refuted"
   ],
   "note": ""
  },
  {
   "property": "C23",
   "status": "proved",
   "theorems": [
    "C23_criterion_roundtrip",
    "C23_criterion_stream_roundtrip",
    "C23_white_space",
    "C23_stream_fail",
    "C23_parser_exact",
    "C23_numeric_codes_exact",
    "C23_numeric_roundtrip_refuted"
   ],
   "note": ""
  },
  {
   "property": "C24",
   "status": "proved",
   "theorems": [
    "C24_scheme_parse",
    "C24_scheme_default",
    "C24_scheme_only",
    "C24_scheme_roundtrip",
    "C24_scheme_stream_roundtrip",
    "C24_stateType_parse",
    "C24_stateType_default",
    "C24_stateType_only",
    "C24_stateType_roundtrip",
    "C24_stateType_stream_roundtrip"
   ],
   "note": ""
  },
  {
   "property": "C25",
   "status": "proved",
   "theorems": [
    "C25_considered_equivalent_exact"
   ],
   "note": ""
  },
  {
   "property": "C26",
   "status": "proved",
   "theorems": [
    "C26_anything_to_execute",
    "C26_only_single_task",
    "C26_only_zx",
    "C26_only_simulation",
    "C26_default_max_sims",
    "C26_bindings_default_agrees",
    "C26_bindings_default_agrees_refuted"
   ],
   "note": ""
  },
  {
   "property": "C27",
   "status": "proved",
   "theorems": [
    "C27_report_determines",
    "C27_report_only_depends"
   ],
   "note": ""
  },
  {
   "property": "C28",
   "status": "proved",
   "theorems": [
    "C28_alternating_computes",
    "C28_lookahead_hidden_swap_refuted"
   ],
   "note": "C28_lookahead_hidden_swap_refuted is the witness for the side condition of C28_alternating_computes."
  },
  {
   "property": "C29",
   "status": "proved",
   "theorems": [
    "C29_construction_computes"
   ],
   "note": ""
  },
  {
   "property": "C30",
   "status": "proved",
   "theorems": [
    "C30_simulation_computes",
    "C30_refutation_is_real"
   ],
   "note": ""
  },
  {
   "property": "C31",
   "status": "proved",
   "theorems": [
    "C31_loop_ends",
    "C31_each_gate_once"
   ],
   "note": ""
  },
  {
   "property": "C32",
   "status": "proved",
   "theorems": [
    "C32_criterion",
    "C32_alternating_exact",
    "C32_alternating_sound",
    "C32_construction_exact",
    "C32_checkers_agree",
    "C32_can_handle_suffices",
    "C32_different_ancillaries_refuted",
    "C32_can_handle_alone_refuted"
   ],
   "note": "The two _refuted theorems are witnesses that the side conditions (same ancillaries, plain outputs) cannot be dropped."
  },
  {
   "property": "C33",
   "status": "proved",
   "theorems": [
    "C33_skip_sound",
    "C33_elided_same_placement",
    "C33_unequal_placement_refuted"
   ],
   "note": "C33_unequal_placement_refuted: skipping is wrong when tracked placements differ."
  },
  {
   "property": "C34",
   "status": "proved",
   "theorems": [
    "C34_tracking_is_swapping"
   ],
   "note": ""
  },
  {
   "property": "C35",
   "status": "proved",
   "theorems": [
    "C35_equivalent_means_close",
    "C35_phase_means_fidelity",
    "C35_equal_up_to_phase_not_refuted"
   ],
   "note": ""
  },
  {
   "property": "C36",
   "status": "proved",
   "theorems": [
    "C36_first_line",
    "C36_comments_ignored",
    "C36_final_newline",
    "C36_unknown_gate_throws",
    "C36_profile_roundtrip",
    "C36_gatecost_step",
    "C36_table_from_cost"
   ],
   "note": ""
  },
  {
   "property": "C37",
   "status": "proved",
   "theorems": [
    "C37_cost_total",
    "C37_cost_closed_form",
    "C37_cost_positive_monotone",
    "C37_unbounded_positive_refuted"
   ],
   "note": ""
  },
  {
   "property": "C38",
   "status": "proved",
   "theorems": [
    "C38_sequential_one_iteration",
    "C38_proportional_in_step"
   ],
   "note": ""
  },
  {
   "property": "C39",
   "status": "proved",
   "theorems": [
    "C39_strip_idle_qubits"
   ],
   "note": ""
  },
  {
   "property": "C40",
   "status": "proved",
   "theorems": [
    "C40_setup",
    "C40_larger_well_formed",
    "C40_smaller_well_formed",
    "C40_missing_qubits",
    "C40_prepare",
    "C40_all_qubits_present_refuted",
    "C40_outputs_not_garbage_refuted"
   ],
   "note": "Proved for the code as it is; the claims that fail are refuted with witnesses (an added ancilla is missing from the smaller circuit's layout when its index is already taken; an output qubit can be marked as garbage)."
  },
  {
   "property": "C41",
   "status": "proved",
   "theorems": [
    "C41_can_handle_exact"
   ],
   "note": ""
  },
  {
   "property": "C42",
   "status": "proved",
   "theorems": [
    "C42_optimisation",
    "C42_schedule",
    "C42_requests",
    "C42_request_applied_refuted",
    "C42_request_applied"
   ],
   "note": "Proved for the code as it is; refuted: the fallback on symbolic circuits never applies when the request flag was set."
  },
  {
   "property": "C43",
   "status": "proved",
   "theorems": [
    "C43_invert_spec",
    "C43_concat_composes",
    "C43_complete_extends",
    "C43_complete_bijection",
    "C43_combined_spec",
    "C43_combined_total",
    "C43_constructor_lookups",
    "C43_gaps_terminate_refuted"
   ],
   "note": "C43_gaps_terminate_refuted: with gaps in the physical indices the combined permutation is partial and the noexcept constructor terminates."
  },
  {
   "property": "C44",
   "status": "proved",
   "theorems": [
    "C44_never_refutes",
    "C44_equivalence_iff",
    "C44_otherwise"
   ],
   "note": ""
  },
  {
   "property": "C45",
   "status": "proved",
   "theorems": [
    "C45_equivalence_justified",
    "C45_non_equivalence_justified",
    "C45_checks_made",
    "C45_reported_instantiations",
    "C45_reported_instantiations_refuted",
    "C45_complete_without_timeout",
    "C45_totals",
    "C45_timeout_stops",
    "C45_timeout_reached_stops_refuted",
    "C45_refutation_kept_refuted",
    "C45_timeout_exact",
    "C45_timeout_bounds_time_refuted",
    "C45_no_information_means_timeout_refuted"
   ],
   "note": "Proved for the code as it is; refuted: the reported number of instantiations when none was checked, and a refutation can be lost to the timeout. Times: exact condition under which the answer of the random instantiation is used under a timeout; two _refuted theorems (total time, answers that fit)."
  },
  {
   "property": "C46",
   "status": "proved",
   "theorems": [
    "C46_zero",
    "C46_phases",
    "C46_zero_instantiation",
    "C46_non_affine_refuted"
   ],
   "note": "Proved for affine parameter expressions; refuted for others."
  },
  {
   "property": "C47",
   "status": "proved",
   "theorems": [
    "C47_unique_section",
    "C47_documented_options",
    "C47_options_documented",
    "C47_last_value_wins",
    "C47_others_unchanged",
    "C47_accepts_exactly",
    "C47_rejection",
    "C47_atomic_refuted"
   ],
   "note": ""
  },
  {
   "property": "C48",
   "status": "proved",
   "theorems": [
    "C48_scheme_and_profile",
    "C48_other_options",
    "C48_errors",
    "C48_names_distinct",
    "C48_shipped_profiles"
   ],
   "note": ""
  },
  {
   "property": "C49",
   "status": "proved",
   "theorems": [
    "C49_continuation",
    "C49_special_cases",
    "C49_measured_costs_kept",
    "C49_special_gates_covered",
    "C49_nothing_else",
    "C49_recurrence_fits",
    "C49_predicted_costs",
    "C49_linear_fallback",
    "C49_sorted",
    "C49_cramer_solves",
    "C49_nonnegative_refuted",
    "C49_total_refuted",
    "C49_total"
   ],
   "note": "numpy arithmetic is exact rational arithmetic. Refuted in addition: predicted costs can be negative, and the continuation raises an exception with fewer than seven costs."
  },
  {
   "property": "C50",
   "status": "proved",
   "theorems": [
    "C50_definitive_verdicts_true",
    "C50_environment_exists",
    "C50_ancillaries_fit",
    "C50_with_zx_checker"
   ],
   "note": "C50_definitive_verdicts_true takes the truth of the ZX verdict as hypothesis (any ancillaries); C50_with_zx_checker derives it from the model of the ZX checker (no ancillaries, no common garbage), given that mqt-core's rewriting preserves the diagram's meaning. ancillaries_fit: the construction checker is only configured for equal ancillaries."
  },
  {
   "property": "C51",
   "status": "proved",
   "theorems": [
    "C51_assertion_fails_exactly",
    "C51_assertion_holds_refuted"
   ],
   "note": ""
  },
  {
   "property": "C52",
   "status": "proved",
   "theorems": [
    "C52_simulations_starved"
   ],
   "note": ""
  },
  {
   "property": "C53",
   "status": "proved",
   "theorems": [
    "C53_null_checker_only_if_constructor_throws",
    "C53_no_exceptions_returns",
    "C53_exception_always_reported_refuted"
   ],
   "note": ""
  },
  {
   "property": "C54",
   "status": "proved",
   "theorems": [
    "C54_exception_does_not_cancel"
   ],
   "note": ""
  },
  {
   "property": "C55",
   "status": "proved",
   "theorems": [
    "C55_phase_exact",
    "C55_equivalence_true",
    "C55_garbage_difference",
    "C55_skipped_are_garbage",
    "C55_garbage_index_refuted",
    "C55_ancillary_refuted",
    "C55_meaning_of_wires",
    "C55_meaning_of_spiders",
    "C55_meaning_of_hadamard_edges"
   ],
   "note": "C55_garbage_index_refuted and C55_ancillary_refuted are witnesses that the restrictions (garbage flags vs. wire indices, ancillaries) cannot be dropped. Meaning-preservation of mqt-core's rewriting is a hypothesis."
  },
  {
   "property": "C56",
   "status": "proved",
   "theorems": [
    "C56_only_checked_rules",
    "C56_preserves",
    "C56_exhaustive",
    "C56_cancelled",
    "C56_cancelled_midway",
    "C56_terminates"
   ],
   "note": ""
  },
  {
   "property": "C57",
   "status": "proved",
   "theorems": [
    "C57_setter",
    "C57_last_call_wins",
    "C57_optimisations_untouched",
    "C57_settings_are_everything",
    "C57_no_simulations",
    "C57_disable_all",
    "C57_scheme_used",
    "C57_profile_used",
    "C57_cost_function_used",
    "C57_cost_function_used_refuted"
   ],
   "note": ""
  },
  {
   "property": "C58",
   "status": "proved",
   "theorems": [
    "C58_refuting_stimulus",
    "C58_no_refuting_stimulus"
   ],
   "note": ""
  },
  {
   "property": "C59",
   "status": "proved",
   "theorems": [
    "C59_alternating_sound",
    "C59_alternating_exact",
    "C59_alternating_run",
    "C59_construction_exact",
    "C59_construction_never_rejects",
    "C59_simulation",
    "C59_construction_superpositions_refuted",
    "C59_alternating_mixed_ancillaries_refuted"
   ],
   "note": "The documented 'if and only if' fails: C59_construction_superpositions_refuted (accepted, not partially equivalent) and C59_alternating_mixed_ancillaries_refuted (rejected, partially equivalent) are the witnesses; the positive theorems give what the two checkers decide exactly. mqt-core's isCloseToIdentity with garbage and reduceGarbage with normalised weights are modelled from their documented meaning."
  },
  {
   "property": "C60",
   "status": "proved",
   "theorems": [
    "C60_constructor",
    "C60_no_exceptions",
    "C60_sequential_run",
    "C60_simulation_refused"
   ],
   "note": "Sequential flow without interruptions; a refusing simulation checker also under interruptions. The parallel counterpart is C53."
  },
  {
   "property": "C61",
   "status": "proved",
   "theorems": [
    "C61_report_is_faithful",
    "C61_any_results",
    "C61_sections",
    "C61_run_reports",
    "C61_reset",
    "C61_entries_of_a_sequential_run",
    "C61_entries_after_rerun_refuted"
   ],
   "note": "C61_entries_after_rerun_refuted: without reset() the checkers of earlier runs are listed again. Runs taking the parallel flow are covered on managers without earlier results."
  },
  {
   "property": "C62",
   "status": "proved",
   "theorems": [
    "C62_one_manager",
    "C62_last_one_wins",
    "C62_managers_independent_refuted",
    "C62_default_refuted"
   ],
   "note": "The _refuted theorems show that two managers are not independent and that a default configuration inherits an earlier tolerance. That dd::ComplexNumbers::setTolerance assigns the static dd::RealNumber::eps is recalled from mqt-core."
  },
  {
   "property": "C63",
   "status": "proved",
   "theorems": [
    "C63_sequential_run_decides"
   ],
   "note": "Exact arithmetic; the checkers' verdicts are those of the modelled runs on the circuits ([describes]), each circuit with its own ancillaries. If only the construction checker is configured, both circuits must have the same ancillaries (see C66)."
  },
  {
   "property": "C64",
   "status": "proved",
   "theorems": [
    "C64_operators_kept",
    "C64_agreement_kept",
    "C64_no_qubit_left",
    "C64_run_decides_given_circuits"
   ],
   "note": "Exact arithmetic; garbage qubits have no output (setLogicalQubitGarbage drops it) and operations act on qubits of the layout; the last theorem takes the checkers' runs on the prepared circuits as in C63. The construction-only case needs equal ancillaries of the prepared circuits."
  },
  {
   "property": "C65",
   "status": "proved",
   "theorems": [
    "C65_zero_from_primary",
    "C65_primary_counts",
    "C65_common_ancillaries_zero_iff",
    "C65_ancillaries_last_suffices",
    "C65_stimuli_fit",
    "C65_run_with_generator_decides",
    "C65_any_ancillaries_refuted"
   ],
   "note": "C65_any_ancillaries_refuted is the witness that ancillaries before data qubits give a wrong 'not equivalent'. The states of mqt-core's random Clifford circuits are hypotheses (clifford_states)."
  },
  {
   "property": "C66",
   "status": "proved",
   "theorems": [
    "C66_same_answer",
    "C66_construction_either_ancillary",
    "C66_different_ancillaries_refuted"
   ],
   "note": "Exact arithmetic, checkers' verdicts as in C63. C66_different_ancillaries_refuted is the witness for different ancillaries."
  },
  {
   "property": "C67",
   "status": "proved",
   "theorems": [
    "C67_parallel_run_decides",
    "C67_with_zx_checker",
    "C67_given_circuits",
    "C67_zx_disagreement_refuted"
   ],
   "note": "Exact arithmetic, checkers' verdicts as in C63; sequentially consistent interleavings (ParFlow). C67_zx_disagreement_refuted: with the ZX checker a schedule can end with no information for circuits that agree."
  },
  {
   "property": "C68",
   "status": "proved",
   "theorems": [
    "C68_sequential_run_decides",
    "C68_parallel_run_decides",
    "C68_definitive_verdicts_true",
    "C68_stimuli_suffice",
    "C68_never_refused",
    "C68_no_ancillaries"
   ],
   "note": "Composition of C42, C64, C65, C16, C63 and C67. The passes of mqt-core's CircuitOptimizer are hypotheses (keeps_meaning); dynamic circuits and the case that no qubit is left (C64_no_qubit_left) are not part of it; parallel version without timeout and without the ZX checker."
  },
  {
   "property": "C69",
   "status": "proved",
   "theorems": [
    "C69_sequential_decides",
    "C69_parallel_decides",
    "C69_construction_only",
    "C69_schedule_refuted",
    "C69_one_sided_garbage_refuted"
   ],
   "note": "Flow-level counterpart of C59 (exact arithmetic; reduceGarbage and isCloseToIdentity as in C59). The two _refuted theorems are the limits: both exact checkers in parallel (schedule decides), garbage in one circuit only."
  },
  {
   "property": "C70",
   "status": "proved",
   "theorems": [
    "C70_checks_honest",
    "C70_not_equivalent_sampled",
    "C70_not_equivalent",
    "C70_rounding",
    "C70_rounding_harmless",
    "C70_equivalent_sampled",
    "C70_symbolic_equivalence",
    "C70_sampled_only_refuted",
    "C70_rounding_refuted"
   ],
   "note": "Composition of C45, C46, C68 and C55. Floats are exact rationals; numpy's pseudo-inverse and the random draws are arbitrary inputs; qiskit's assign_parameters is modelled as evaluation; the symbolic ZX diagram is a hypothesis (zx_describes_symbolically: one reduced diagram standing for the circuits at all values), as is that operations act on the same qubits for all values. Two _refuted theorems give the limits (sampling only; rounding)."
  },
  {
   "property": "C71",
   "status": "proved",
   "theorems": [
    "C71_general_circuit",
    "C71_multi_controlled_circuit",
    "C71_total",
    "C71_contents",
    "C71_beyond",
    "C71_predicted",
    "C71_read_back",
    "C71_scheme_follows_the_measurement",
    "C71_small_costs_refuted"
   ],
   "note": "The costs (compute_cost: qiskit's transpiler) and the linear-system solver are arbitrary functions; parameter values of the measured circuits are not modelled; mqt-core's opTypeFromString is an arbitrary map that knows the 23 names and tells them apart; floats are exact rationals. C71_small_costs_refuted: negative predicted costs wrap around in the reader."
  },
  {
   "property": "C72",
   "status": "proved",
   "theorems": [
    "C72_verify",
    "C72_option_kept",
    "C72_keyword_persists",
    "C72_flow_persists",
    "C72_independent_without_object",
    "C72_keywords_local_refuted"
   ],
   "note": "The checks are arbitrary functions of the circuits and the configuration. That managers work on a copy and that check_parameterized only reads the object is by inspection (cited in PyVerify.v). C72_keywords_local_refuted: keyword arguments are not for one call only."
  },
  {
   "property": "C73",
   "status": "proved",
   "theorems": [
    "C73_equivalence_true",
    "C73_garbage_difference",
    "C73_no_difference_reported",
    "C73_fixed_wires",
    "C73_fixed_wires_refuted",
    "C73_fixing_defined_refuted"
   ],
   "note": "Relative to mqt-core: the reduced diagram stands for the product of the two post-selected operators (makeAncilla, invert, concat, rewriting). That both circuits return their ancillaries is a hypothesis; C55_ancillary_refuted shows that the checker does not test it. That the remaining wires are those of the data outputs holds if the output permutation is increasing on the ancillaries (C73_fixed_wires) and fails otherwise (C73_fixed_wires_refuted, C73_fixing_defined_refuted: makeAncilla, recalled, addresses outputs by current position)."
  },
  {
   "property": "C74",
   "status": "proved",
   "theorems": [
    "C74_definite",
    "C74_settings_irrelevant",
    "C74_order_irrelevant",
    "C74_self",
    "C74_exchangeable",
    "C74_transitive",
    "C74_transitive_any_size_refuted"
   ],
   "note": "Composition of C68 with the uniqueness of the operator of a circuit all of whose qubits are read out; exact arithmetic, as in C63. C74_transitive_any_size_refuted: the middle circuit has fewer qubits."
  },
  {
   "property": "C75",
   "status": "proved",
   "theorems": [
    "C75_no_reclaimed_diagram_is_used",
    "C75_references_are_exact",
    "C75_simulations_leave_no_reference",
    "C75_counterexample_input_is_intact_refuted",
    "C75_counterexample_input_without_collection",
    "C75_second_run_same_stimulus_refuted",
    "C75_every_run_leaves_no_reference_refuted",
    "C75_lookahead_keeps_only_the_result_refuted"
   ],
   "note": "Reference counts are kept for root nodes; mqt-core's incRef/decRef/garbageCollect/multiply/reduceAncillae/changePermutation/simulate are modelled by their contract (recalled). Results of package operations, collector runs, scheme answers and cancellation are arbitrary (oracle). Four _refuted theorems: counterexample input, second run, cancelled runs, cached lookahead operations."
  },
  {
   "property": "C76",
   "status": "proved",
   "theorems": [
    "C76_documented_defaults",
    "C76_documented_threads",
    "C76_documented_threads_any_machine_refuted",
    "C76_at_least_two_threads",
    "C76_no_argument_restores_default",
    "C76_all_defaults_restored",
    "C76_restored_on_any_machine_refuted",
    "C76_profile_without_argument"
   ],
   "note": "Documentation strings of bindings.cpp as the specification; two _refuted theorems for machines reporting fewer than two threads."
  },
  {
   "property": "C77",
   "status": "proved",
   "theorems": [
    "C77_traces_cover_executions",
    "C77_clocks_exact",
    "C77_race_free_until_decided",
    "C77_data_race_free",
    "C77_races_only_in_cancellation",
    "C77_flag_race_is_construction",
    "C77_cancellation_races",
    "C77_race_free_refuted",
    "C77_futures_valid",
    "C77_no_thread_outlives_run"
   ],
   "note": "Granularity: the steps of ParFlow.v; everything a checker owns is one location, its flag another. Relaxed atomics order nothing; the deadline wait of the queue is treated as acquiring and releasing its mutex. C77_race_free_refuted: the code has data races on done, on the entries of checkers and on freshly constructed flags."
  },
  {
   "property": "C78",
   "status": "proved",
   "theorems": [
    "C78_interleavings_exact_sequential",
    "C78_interleavings_exact_symbolic",
    "C78_executions_end",
    "C78_no_deadlock",
    "C78_notified_in_time",
    "C78_settled_is_announced_sequential",
    "C78_settled_is_announced_symbolic",
    "C78_announcement_wakes_refuted",
    "C78_waits_for_the_deadline",
    "C78_no_timeout_race_free",
    "C78_timeout_races_sequential",
    "C78_timeout_races_symbolic",
    "C78_iteration_safe_refuted"
   ],
   "note": "Granularity: one atomic step per access to shared state; wait_for is spelled out (predicate, release-and-sleep, wake-up, deadline). C78_announcement_wakes_refuted (lost wake-up: done is written without holding the mutex) and C78_iteration_safe_refuted (emplace_back during the loop over the checkers) are defects of the code; C78_timeout_races_* show that every run with a timeout that returns has a data race on done."
  },
  {
   "property": "C79",
   "status": "proved",
   "theorems": [
    "C79_queue_race_free",
    "C79_queue_publishes"
   ],
   "note": "Locations: head, tail and the two members of each node; node addresses are not reused in the model. shared_ptr reference counts (atomic) and the condition variable are left out."
  },
  {
   "property": "C80",
   "status": "proved",
   "theorems": [
    "C80_lookahead_greedy",
    "C80_greedy_is_a_function",
    "C80_onetoone_alternates"
   ],
   "note": ""
  },
  {
   "property": "C81",
   "status": "proved",
   "theorems": [
    "C81_plain_returns",
    "C81_error_keywords",
    "C81_error_first",
    "C81_error_second",
    "C81_error_run",
    "C81_unsupported_objects",
    "C81_modules_needed",
    "C81_parameterised",
    "C81_symbolic_check",
    "C81_instantiated_check",
    "C81_parameterised_input",
    "C81_file_against_parameterised",
    "C81_different_parameters",
    "C81_no_partial_results",
    "C81_compilation",
    "C81_compilation_refused"
   ],
   "note": ""
  },
  {
   "property": "C82",
   "status": "proved",
   "theorems": [
    "C82_takes_part",
    "C82_never_returns",
    "C82_throws_only_if_refused",
    "C82_each_refusal_can_throw",
    "C82_all_refuse",
    "C82_refusing_run_never_returns_refuted"
   ],
   "note": ""
  },
  {
   "property": "C83",
   "status": "proved",
   "theorems": [
    "C83_only_the_target",
    "C83_untouched",
    "C83_variables_stable",
    "C83_manager_history",
    "C83_set_option",
    "C83_set_section",
    "C83_set_results_configuration",
    "C83_set_results_field",
    "C83_new_manager",
    "C83_get_configuration",
    "C83_get_results",
    "C83_run_records_configuration",
    "C83_saved_plain_option",
    "C83_saved_scheme_is_live",
    "C83_saved_option_can_be_put_back_refuted"
   ],
   "note": "Heap model of the Python objects; pybind11's semantics of def_readwrite (references for bound classes and enumerations, copies otherwise) is recalled, not checked. C83_saved_option_can_be_put_back_refuted: saving an application scheme and assigning it back later does not restore it."
  },
  {
   "property": "C84",
   "status": "proved",
   "theorems": [
    "C84_first_run_agrees",
    "C84_left_behind",
    "C84_stopped_checkers_never_run",
    "C84_verdict_source",
    "C84_repeated_runs_source",
    "C84_repeated_runs_sound",
    "C84_steps_bounded",
    "C84_kind_mismatch_never_returns",
    "C84_second_simulation_run_hangs",
    "C84_same_answer_refuted",
    "C84_changed_settings_refuted",
    "C84_counterexample_refuted",
    "C84_simulation_count_refuted"
   ],
   "note": "The transition system of ParFlow.v started with left-over checkers and results. Refuted with concrete schedules: a second run gives the same answer, changed settings take effect, a reported counterexample distinguishes, at most max_sims simulations are reported; a second simulation-only run always hangs."
  },
  {
   "property": "C85",
   "status": "proved",
   "theorems": [
    "C85_verdict_source",
    "C85_sound",
    "C85_checkers",
    "C85_throws_iff_left",
    "C85_throw_leaves_no_verdict",
    "C85_parallel_throw_leaves_no_verdict",
    "C85_switched_off_refuted",
    "C85_given_circuits",
    "C85_from_the_constructor",
    "C85_about_the_circuits",
    "C85_about_the_circuits_zx"
   ],
   "note": "C85_switched_off_refuted: sometimes a verdict of a left-over simulation is reported although simulations are switched off, and more simulations performed than started"
  },
  {
   "property": "C86",
   "status": "proved",
   "theorems": [
    "C86_files",
    "C86_other_levels",
    "C86_generated",
    "C86_readable",
    "C86_which_gates",
    "C86_scheme",
    "C86_one_each",
    "C86_costs",
    "C86_higher_level",
    "C86_levels_2_and_3",
    "C86_more_controls",
    "C86_mode_matters",
    "C86_more_ancillaries",
    "C86_fixed_phase",
    "C86_both_circuits_advance_refuted",
    "C86_higher_level_never_costlier_refuted",
    "C86_more_controls_never_cheaper_refuted",
    "C86_more_ancillaries_never_costlier_refuted"
   ],
   "note": "The twelve files are copied into the model character by character; knows_names (mqt-core knows the 23 gate names and tells them apart) is a hypothesis. _refuted: the exceptions to monotonicity, and that the scheme always advances both circuits (SWAP costs 0 from level 2 on)."
  },
  {
   "property": "C87",
   "status": "proved",
   "theorems": [
    "C87_same_exactly_if_read_alike",
    "C87_read_elsewhere_differs",
    "C87_constructor",
    "C87_verdict_true_exactly_if_read_alike",
    "C87_verdict_true_refuted"
   ],
   "note": "C87_verdict_true_refuted: 'equivalent' is reported for two circuits without operations whose output permutations differ"
  },
  {
   "property": "C88",
   "status": "proved",
   "theorems": [
    "C88_constructor_asks_for_all",
    "C88_exhaustive_run",
    "C88_exhaustive_parallel_run",
    "C88_classical_circuits_decided",
    "C88_classical_given_circuits",
    "C88_decides_up_to_phases",
    "C88_given_circuits_up_to_phases",
    "C88_phases_never_seen",
    "C88_decides_equivalence_refuted"
   ],
   "note": "C88_decides_equivalence_refuted: simulating all basis states does not tell Z from the identity; inputs are those with zeros from the number of primary qubits on (C65)"
  }
 ]
}