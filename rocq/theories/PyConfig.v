(** Model of src/mqt/qcec/configuration.py (augment_config_from_kwargs) and src/mqt/qcec/verify_compilation_flow.py. No proofs in this file.

    A Configuration object is what reading its attributes gives, per section. Python values are an arbitrary type; what pybind11 does when an
    attribute is assigned (type conversion, TypeError) is an arbitrary function. *)
From Coq Require Import String List Bool ZArith DecimalString.
Import ListNotations.
Open Scope string_scope.

Inductive sect := Application | Execution | Functionality | Optimizations | Parameterized | Simulation.
Definition sect_eqb (a b : sect) : bool :=
  match a, b with Application, Application | Execution, Execution | Functionality, Functionality | Optimizations, Optimizations
  | Parameterized, Parameterized | Simulation, Simulation => true | _, _ => false end.

(** the attributes of the sections, src/python/bindings.cpp:507-741. (hasattr is also true of the attributes every Python object has,
    such as __doc__; these are left out) *)
Definition attrs (s : sect) : list string :=
  match s with
  | Execution => ["parallel"; "nthreads"; "timeout"; "run_construction_checker"; "run_simulation_checker"; "run_alternating_checker";
                  "run_zx_checker"; "numerical_tolerance"]
  | Optimizations => ["fuse_single_qubit_gates"; "reconstruct_swaps"; "remove_diagonal_gates_before_measure"; "transform_dynamic_circuit";
                      "reorder_operations"; "backpropagate_output_permutation"; "elide_permutations"]
  | Application => ["construction_scheme"; "simulation_scheme"; "alternating_scheme"; "profile"]
  | Functionality => ["trace_threshold"; "check_partial_equivalence"]
  | Simulation => ["fidelity_threshold"; "max_sims"; "state_type"; "seed"; "store_cex_input"; "store_cex_output"]
  | Parameterized => ["parameterized_tolerance"; "additional_instantiations"]
  end.
Definition hasattr (s : sect) (k : string) : bool := existsb (String.eqb k) (attrs s).

(** configuration.py:13-53, the keys of ConfigurationOptions *)
Definition documented_options : list string :=
  ["alternating_scheme"; "construction_scheme"; "profile"; "simulation_scheme"; "nthreads"; "numerical_tolerance"; "parallel"; "run_alternating_checker";
   "run_construction_checker"; "run_simulation_checker"; "run_zx_checker"; "timeout"; "trace_threshold"; "check_partial_equivalence";
   "backpropagate_output_permutation"; "elide_permutations"; "fuse_single_qubit_gates"; "reconstruct_swaps"; "remove_diagonal_gates_before_measure";
   "reorder_operations"; "transform_dynamic_circuit"; "additional_instantiations"; "parameterized_tolerance"; "fidelity_threshold"; "max_sims"; "seed";
   "state_type"; "store_cex_input"; "store_cex_output"].

(** compilation_flow_profiles.py:18-37 *)
Inductive ancilla_mode := NoAncilla | Recursion | VChain.
Definition mode_str (m : ancilla_mode) : string := match m with NoAncilla => "noancilla" | Recursion => "recursion" | VChain => "v-chain" end.
(** str(level) *)
Definition str_int (z : Z) : string := NilZero.string_of_int (Z.to_int z).
(** compilation_flow_profiles.py:295-297 *)
Definition generate_profile_name (level : Z) (m : ancilla_mode) : string := "qiskit_O" ++ str_int level ++ "_" ++ mode_str m ++ ".profile".

Section Config.
Variable V : Type.
Variable convert : sect -> string -> V -> option V. (* the value an attribute has after an assignment; None: TypeError *)
Definition pyconfig := sect -> string -> V.
Definition setattr (c : pyconfig) (s : sect) (k : string) (v : V) : pyconfig := fun s' k' => if sect_eqb s' s && String.eqb k' k then v else c s' k'.

(** configuration.py:63-78: the section an option is assigned in *)
Definition dispatch (k : string) : option sect :=
  if hasattr Application k then Some Application else if hasattr Execution k then Some Execution
  else if hasattr Functionality k then Some Functionality else if hasattr Optimizations k then Some Optimizations
  else if hasattr Parameterized k then Some Parameterized else if hasattr Simulation k then Some Simulation else None.

Inductive error := ValueError (k : string) | TypeError (k : string).
(** configuration.py:56-78: the configuration object afterwards, and the exception, if any *)
Fixpoint augment (c : pyconfig) (kwargs : list (string * V)) : pyconfig * option error :=
  match kwargs with
  | [] => (c, None)
  | (k, v) :: r => match dispatch k with
                   | None => (c, Some (ValueError k))
                   | Some s => match convert s k v with
                               | None => (c, Some (TypeError k))
                               | Some v' => augment (setattr c s k v') r
                               end
                   end
  end.

Variable gate_cost : V.          (* ApplicationScheme.gate_cost *)
Variable path : string -> V.     (* str of the path of a file in the package's profiles directory *)
(** verify_compilation_flow.py:42-95 up to the call of verify: the configuration object afterwards (the caller's own, if it passed one), which is
    also the one that verify gets, without further keyword arguments (which leaves it as it is, verify.py:52-55). The check for measurements only warns *)
Definition verify_compilation (c : pyconfig) (kwargs : list (string * V)) (level : Z) (m : ancilla_mode) : pyconfig * option error :=
  match augment c kwargs with
  | (c, Some err) => (c, Some err)
  | (c, None) =>
      let c := setattr c Application "construction_scheme" gate_cost in
      let c := setattr c Application "simulation_scheme" gate_cost in
      let c := setattr c Application "alternating_scheme" gate_cost in
      (setattr c Application "profile" (path (generate_profile_name level m)), None)
  end.
End Config.
Arguments setattr {V}. Arguments augment {V}. Arguments verify_compilation {V}.

(** the profiles shipped in src/mqt/qcec/profiles *)
Definition shipped : list string :=
  ["qiskit_O0_noancilla.profile"; "qiskit_O0_recursion.profile"; "qiskit_O0_v-chain.profile"; "qiskit_O1_noancilla.profile"; "qiskit_O1_recursion.profile";
   "qiskit_O1_v-chain.profile"; "qiskit_O2_noancilla.profile"; "qiskit_O2_recursion.profile"; "qiskit_O2_v-chain.profile"; "qiskit_O3_noancilla.profile";
   "qiskit_O3_recursion.profile"; "qiskit_O3_v-chain.profile"].
