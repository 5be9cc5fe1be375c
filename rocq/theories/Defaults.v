(** The Python methods of the manager called without an argument. Definitions only. *)
From Coq Require Import String List Bool NArith QArith.
From Verif Require Import Criterion Config Setters.
Import ListNotations.

Section Defaults.
Variable F : Type.
(** the methods with a default argument, src/python/bindings.cpp:199-366 *)
Inductive method :=
| set_tolerance | set_parallel | set_nthreads | set_timeout
| set_construction_checker | set_simulation_checker | set_alternating_checker | set_zx_checker
| set_application_scheme | set_construction_application_scheme | set_simulation_application_scheme | set_alternating_application_scheme
| set_gate_cost_profile | set_construction_gate_cost_profile | set_simulation_gate_cost_profile | set_alternating_gate_cost_profile
| set_trace_threshold | set_check_partial_equivalence | set_fidelity_threshold | set_max_sims | set_state_type | set_seed
| store_cex_input | store_cex_output.
(** the setter such a call amounts to; [hw]: std::thread::hardware_concurrency, [eps]: dd::RealNumber::eps when the module was loaded.
    bindings.cpp:199-202, 204-206, 208-211, 212-215, 216-221, 222-226, 227-232, 233-237, 264-267, 269-275, 276-282, 283-289, 290-294, 295-302, 303-310, 311-318,
    320-323, 325-333, 335-339, 341-346, 347-352, 353-357, 358-362, 363-367 *)
Definition no_argument (hw : N) (eps : Q) (p : method) : setter F :=
  match p with
  | set_tolerance => SetTolerance eps
  | set_parallel => SetParallel true
  | set_nthreads => SetNThreads (N.max 2 hw)
  | set_timeout => SetTimeout 0
  | set_construction_checker => SetConstructionChecker false
  | set_simulation_checker => SetSimulationChecker true
  | set_alternating_checker => SetAlternatingChecker true
  | set_zx_checker => SetZXChecker true
  | set_application_scheme => SetApplicationScheme Proportional
  | set_construction_application_scheme => SetConstructionApplicationScheme Proportional
  | set_simulation_application_scheme => SetSimulationApplicationScheme Proportional
  | set_alternating_application_scheme => SetAlternatingApplicationScheme Proportional
  | set_gate_cost_profile => SetGateCostProfile ""
  | set_construction_gate_cost_profile => SetConstructionGateCostProfile ""
  | set_simulation_gate_cost_profile => SetSimulationGateCostProfile ""
  | set_alternating_gate_cost_profile => SetAlternatingGateCostProfile ""
  | set_trace_threshold => SetTraceThreshold (1 # 100000000)
  | set_check_partial_equivalence => SetCheckPartialEquivalence false
  | set_fidelity_threshold => SetFidelityThreshold (1 # 100000000)
  | set_max_sims => SetMaxSims (bindings_default_max_sims hw)
  | set_state_type => SetStateType ComputationalBasis
  | set_seed => SetSeed 0
  | store_cex_input => StoreCEXinput false
  | store_cex_output => StoreCEXoutput false
  end.
End Defaults.
Arguments no_argument {F}.
