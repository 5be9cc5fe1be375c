(** Specification vocabulary for the Python entry points. No proofs in this file. *)
From Coq Require Import String List Bool QArith.
From Verif Require Import Criterion PyConfig PyParam PyEntry.
Import ListNotations.
Open Scope string_scope.

(** how a step ends, whatever its value *)
Definition ending {A} (r : result A) : result unit := bind r (fun _ => Ok tt).
(** [in_order steps r]: a call that makes these steps one after the other and then ends like [r]: the first step that raises or does not return
    decides, and the following ones are not made *)
Fixpoint in_order {A} (steps : list (result unit)) (r : result A) : result A :=
  match steps with
  | [] => r
  | Ok _ :: rest => in_order rest r
  | Raise x :: _ => Raise x
  | NoReturn :: _ => NoReturn
  end.

Section Spec.
Context {V C Q1 M X : Type}.
Variable w : world V C Q1 M X.

(** [imports o q]: the object [o] can be imported and gives the circuit [q] *)
Inductive imports : object C -> Q1 -> Prop :=
| imports_file f q : missing w = None -> import_file w f = inl q -> imports (OStr f) q
| imports_circuit c q : missing w = None -> import_qiskit w c = inl q -> imports (OCircuit c) q.
(** [refused o msg]: the object [o] cannot be imported, for the reason [msg] *)
Inductive refused : object C -> string -> Prop :=
| refused_modules o msg : missing w = Some msg -> refused o msg
| refused_file f msg : missing w = None -> import_file w f = inr msg -> refused (OStr f) msg
| refused_circuit c msg : missing w = None -> import_qiskit w c = inr msg -> refused (OCircuit c) msg
| refused_other p : missing w = None -> refused (OOther p) "PyObject is neither py::str, QuantumCircuit, nor QasmQobjExperiment".

(** a file, or a circuit without free parameters *)
Definition without_parameters (o : object C) : Prop := match o with OStr _ => True | OCircuit c => has_parameters w c = false | OOther _ => False end.
(** verify() treats the objects as parameterised *)
Definition with_parameters (o1 o2 : object C) : Prop :=
  (exists c, o1 = OCircuit c /\ has_parameters w c = true) \/
  (without_parameters o1 /\ exists c, o2 = OCircuit c /\ has_parameters w c = true).

(** the steps of the flow for parameterised circuits, each as if all before it had succeeded:
    the symbolic check, the extraction of the parameters, instantiation number k (0: all expressions 0; 1 to n: phases; n + 1: random values)
    and the check of the instantiated circuits *)
Definition symbolic_check (o1 o2 : object C) c := check_parameterized_zx w o1 o2 c.
Definition extraction (o1 o2 : object C) : result (C * C * X) := extract_params w o1 o2.
Definition instantiation (n : nat) (o1 o2 : object C) c (k : nat) : result (C * C * Q) :=
  bind (extraction o1 o2) (fun '(c1, c2, x) =>
    if Nat.leb k n then instantiate w c1 c2 x c k else bind (instantiate_random w c1 c2 x) (fun '(r1, r2) => Ok (r1, r2, 0))).
Definition instantiated_check (n : nat) (o1 o2 : object C) c (k : nat) : result presult :=
  bind (instantiation n o1 o2 c k) (fun '(i1, i2, _) => check_instantiated w i1 i2 c).

(** [e] (the input of the flow of C45) tells what the steps give, as far as they succeed *)
Definition tells (n : nat) (o1 o2 : object C) c (e : penv) : Prop :=
  (forall r, symbolic_check o1 o2 c = Ok r -> zx e = r) /\
  (forall i1 i2 t, instantiation n o1 o2 c 0 = Ok (i1, i2, t) -> zero_time e = t) /\
  (forall r, instantiated_check n o1 o2 c 0 = Ok r -> zero e = r) /\
  (forall i i1 i2 t, (i < n)%nat -> instantiation n o1 o2 c (S i) = Ok (i1, i2, t) -> phase_time e i = t) /\
  (forall i r, (i < n)%nat -> instantiated_check n o1 o2 c (S i) = Ok r -> phase e i = r) /\
  (forall r, instantiated_check n o1 o2 c (S n) = Ok r -> random e = r).

(** the steps made when the symbolic check did not succeed and [m] instantiated checks are made *)
Definition steps_with (n : nat) (o1 o2 : object C) c (m : nat) : list (result unit) :=
  [ending (extraction o1 o2); ending (instantiation n o1 o2 c 0)] ++
  concat (map (fun k => [ending (instantiation n o1 o2 c k); ending (instantiated_check n o1 o2 c k)]) (seq 0 m)).
Definition steps_made (n : nat) (o1 o2 : object C) c (accepted : bool) (m : nat) : list (result unit) :=
  ending (symbolic_check o1 o2 c) :: if accepted then [] else steps_with n o1 o2 c m.

(** assign_parameters refuses values for parameters that a circuit does not have (Qiskit's default since version 0.45): instantiating two
    circuits with different parameters raises *)
Definition strict_binding {P} (parameters : C -> P) : Prop :=
  forall c1 c2 x c k, parameters c1 <> parameters c2 -> exists msg, instantiate w c1 c2 x c k = Raise (EOther msg).
End Spec.
