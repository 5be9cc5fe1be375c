(** Model of the Python entry points with their exceptions: how circuits get from Python objects into a manager (src/python/bindings.cpp:30-71),
    verify (src/mqt/qcec/verify.py:17-62), check_parameterized (src/mqt/qcec/parameterized.py) and verify_compilation
    (src/mqt/qcec/verify_compilation_flow.py:21-98). No proofs in this file.

    Inputs, that is arbitrary: what importing a file or a circuit gives, the manager's constructor and run(), what Qiskit and numpy do with
    parameters, random draws, measured times. PyVerify.v and PyParam.v model the same functions for calls in which nothing raises. *)
From Coq Require Import String List Bool QArith ZArith.
From Verif Require Import Criterion PyConfig PyParam.
Import ListNotations.
Open Scope string_scope.

(** Python exceptions: of augment_config_from_kwargs; AttributeError; RuntimeError (what pybind11 makes of a C++ std::exception); any other *)
Inductive exn := EKeyword (e : error) | EAttribute | ERuntime (msg : string) | EOther (msg : string).
(** how a call ends: with a value, with an exception, or not at all (crash, std::terminate, hanging) *)
Inductive result (A : Type) := Ok (a : A) | Raise (x : exn) | NoReturn.
Arguments Ok {A}. Arguments Raise {A}. Arguments NoReturn {A}.
Definition bind {A B} (r : result A) (f : A -> result B) : result B := match r with Ok a => f a | Raise x => Raise x | NoReturn => NoReturn end.

(** a Python object handed over as a circuit: a str, a qiskit.QuantumCircuit, or something else - without attribute 'parameters', or
    with it, of the given truth value *)
Inductive object (C : Type) := OStr (file : string) | OCircuit (c : C) | OOther (parameters : option bool).
Arguments OStr {C}. Arguments OCircuit {C}. Arguments OOther {C}.

(** what the entry points call *)
Record world (V C Q1 M X : Type) := mkWorld { (* option values, Qiskit circuits, imported circuits, managers, extracted parameters *)
  convert : sect -> string -> V -> option V;       (* as in PyConfig.v *)
  gate_cost : V; path : string -> V;               (* as in PyConfig.v *)
  num : V -> Q;                                    (* the number that configuration.execution.timeout is *)
  count : V -> nat;                                (* the same for configuration.parameterized.additional_instantiations *)
  missing : option string;                         (* the error of importing qiskit and qiskit.qobj, bindings.cpp:31-34, if any *)
  import_file : string -> Q1 + string;             (* QuantumComputation::import: the circuit or ex.what() *)
  import_qiskit : C -> Q1 + string;                (* qiskit::QuantumCircuit::import *)
  construct : Q1 -> Q1 -> pyconfig V -> result M;  (* EquivalenceCheckingManager.cpp:354-410 *)
  disable_all : M -> M;                            (* disable_all_checkers *)
  set_zx : bool -> M -> M;                         (* set_zx_checker *)
  run : M -> result presult;                       (* run(), then get_results() *)
  has_parameters : C -> bool;                      (* circuit.parameters is not empty *)
  contains_measure : C -> bool;                    (* ContainsInstruction("measure") *)
  extract : C -> C -> result X;                    (* parameterized.py:45-79 *)
  (* instantiation number k under the given configuration: 0 is _instantiate_params_zero, lines 169-172, k + 1 is the one of round k,
     _instantiate_params_phases, lines 174-181, with the time each takes *)
  instantiate : C -> C -> X -> pyconfig V -> nat -> result (C * C * Q);
  instantiate_random : C -> C -> X -> result (C * C) }. (* lines 98-104 *)
Arguments convert {V C Q1 M X}. Arguments gate_cost {V C Q1 M X}. Arguments path {V C Q1 M X}. Arguments num {V C Q1 M X}. Arguments count {V C Q1 M X}.
Arguments missing {V C Q1 M X}. Arguments import_file {V C Q1 M X}. Arguments import_qiskit {V C Q1 M X}. Arguments construct {V C Q1 M X}.
Arguments disable_all {V C Q1 M X}. Arguments set_zx {V C Q1 M X}. Arguments run {V C Q1 M X}. Arguments has_parameters {V C Q1 M X}.
Arguments contains_measure {V C Q1 M X}. Arguments extract {V C Q1 M X}. Arguments instantiate {V C Q1 M X}. Arguments instantiate_random {V C Q1 M X}.

Section Entry.
Context {V C Q1 M X : Type}.
Variable w : world V C Q1 M X.

(** bindings.cpp:30-48: importCircuit; the message of the exception *)
Definition import_circuit (o : object C) : Q1 + string :=
  match (missing w) with
  | Some msg => inr msg
  | None => match o with
            | OStr f => (import_file w) f
            | OCircuit c => (import_qiskit w) c
            | OOther _ => inr "PyObject is neither py::str, QuantumCircuit, nor QasmQobjExperiment"
            end
  end.
(** bindings.cpp:50-71: createManagerFromConfiguration *)
Definition manager (o1 o2 : object C) (c : pyconfig V) : result M :=
  match import_circuit o1 with
  | inr msg => Raise (ERuntime ("Could not import first circuit: " ++ msg))
  | inl q1 => match import_circuit o2 with
              | inr msg => Raise (ERuntime ("Could not import second circuit: " ++ msg))
              | inl q2 => (construct w) q1 q2 c
              end
  end.

(** parameterized.py:19-20 *)
Definition is_parameterized (o : object C) : result bool :=
  match o with
  | OStr _ => Ok false
  | OCircuit c => Ok ((has_parameters w) c)
  | OOther None => Raise EAttribute
  | OOther (Some b) => Ok b
  end.
(** verify.py:52: 'or' does not look at the second circuit if the first is parameterised *)
Definition either_parameterized (o1 o2 : object C) : result bool :=
  bind (is_parameterized o1) (fun b => if b then Ok true else is_parameterized o2).

(** parameterized.py:32-42 *)
Definition check_parameterized_zx (o1 o2 : object C) (c : pyconfig V) : result presult :=
  bind (manager o1 o2 c) (fun m => (run w) ((set_zx w) true ((disable_all w) m))).
(** parameterized.py:82-91 *)
Definition check_instantiated (c1 c2 : C) (c : pyconfig V) : result presult :=
  bind (manager (OCircuit c1) (OCircuit c2) c) (fun m => (run w) ((set_zx w) false m)).
(** parameterized.py:45-79 on the objects; a str has no attribute 'parameters'. (Objects that are neither cannot get here: the manager of the
    symbolic check would have refused them.) *)
Definition extract_params (o1 o2 : object C) : result (C * C * X) :=
  match o1, o2 with
  | OCircuit c1, OCircuit c2 => bind ((extract w) c1 c2) (fun x => Ok (c1, c2, x))
  | _, _ => Raise EAttribute
  end.

(** parameterized.py:196-211: [k] rounds from round [i] on; [inl]: the function returns *)
Fixpoint py_rounds (c1 c2 : C) (x : X) (c : pyconfig V) (k i : nat) (timeout runtime : Q) (s : stats) : result (presult + Q * Q * stats) :=
  match k with
  | O => Ok (inr (timeout, runtime, s))
  | S k' =>
      bind ((instantiate w) c1 c2 x c (S i)) (fun '(i1, i2, runtime) =>
      let timeout := adjust timeout runtime in
      bind (check_instantiated i1 i2 c) (fun res =>
      let timeout := adjust timeout (cost res) in
      if negative timeout then Ok (inl (no_info (write s (i + 2) res)))
      else let s := update s res in
           if criterion_eqb (r_eq res) NotEquivalent then Ok (inl (write s (i + 2) res))
           else py_rounds c1 c2 x c k' (S i) timeout runtime s))
  end.
(** parameterized.py:109-220 *)
Definition py_check_parameterized (o1 o2 : object C) (c : pyconfig V) : result presult :=
  bind (check_parameterized_zx o1 o2 c) (fun res =>
  if consideredEquivalent (r_eq res) then Ok res
  else
    let s := update (mkStats 0 0 0 0) res in
    let timeout := adjust ((num w) (c Execution "timeout")) (cost res) in
    let n := (count w) (c Parameterized "additional_instantiations") in
    bind (extract_params o1 o2) (fun '(c1, c2, x) =>
    bind ((instantiate w) c1 c2 x c 0) (fun '(i1, i2, runtime) =>
    let timeout := adjust timeout runtime in
    if negative timeout then Ok (no_info (write s 1 res))
    else
      bind (check_instantiated i1 i2 c) (fun res =>
      let s := update s res in
      if criterion_eqb (r_eq res) NotEquivalent then Ok (write s 1 res)
      else bind (py_rounds c1 c2 x c n 0 timeout runtime s) (fun t =>
           match t with
           | inl r => Ok r
           | inr (timeout, runtime, s) =>
               bind ((instantiate_random w) c1 c2 x) (fun '(r1, r2) =>
               bind (check_instantiated r1 r2 c) (fun res =>
               let timeout := adjust timeout runtime in
               let res := if negative timeout then no_info res else res in
               let s := update s res in
               Ok (write s (n + 2) res)))
           end))))).

(** verify.py:55-62: neither circuit is parameterised *)
Definition check_plain (o1 o2 : object C) (c : pyconfig V) : result presult := bind (manager o1 o2 c) (run w).
(** verify.py:49-62 on the given configuration object: the object afterwards and how the call ends *)
Definition py_verify (c : pyconfig V) (o1 o2 : object C) (kwargs : list (string * V)) : pyconfig V * result presult :=
  match augment (convert w) c kwargs with
  | (c, Some e) => (c, Raise (EKeyword e))
  | (c, None) => (c, bind (either_parameterized o1 o2) (fun b => if b then py_check_parameterized o1 o2 c else check_plain o1 o2 c))
  end.

(** verify_compilation_flow.py:21-39, 77-81: a warning for a circuit without measurements *)
Definition warns (o : object C) : bool := match o with OCircuit c => negb ((contains_measure w) c) | _ => false end.
(** verify_compilation_flow.py:42-98: the configuration object afterwards, the number of warnings, how the call ends. (Python shows the same
    warning only once by default; filters that turn warnings into exceptions are left out) *)
Definition py_verify_compilation (c : pyconfig V) (o1 o2 : object C) (level : Z) (m : ancilla_mode) (kwargs : list (string * V)) :
  pyconfig V * nat * result presult :=
  match augment (convert w) c kwargs with
  | (c, Some e) => (c, 0%nat, Raise (EKeyword e))
  | (c, None) =>
      let warnings := ((if warns o1 then 1 else 0) + (if warns o2 then 1 else 0))%nat in
      let c := setattr c Application "construction_scheme" (gate_cost w) in
      let c := setattr c Application "simulation_scheme" (gate_cost w) in
      let c := setattr c Application "alternating_scheme" (gate_cost w) in
      let c := setattr c Application "profile" ((path w) (generate_profile_name level m)) in
      let '(c, r) := py_verify c o1 o2 [] in (c, warnings, r)
  end.
End Entry.
