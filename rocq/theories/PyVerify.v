(** Model of the entry points verify (src/mqt/qcec/verify.py:18-62) and verify_compilation (src/mqt/qcec/verify_compilation_flow.py:42-98) on a
    configuration object that is used for several calls. No proofs in this file.

    The checks themselves are inputs: arbitrary functions of the circuits and the configuration. They get the caller's configuration object
    but do not change it: check_parameterized only reads it (parameterized.py:109-220) and every manager works on its own copy
    (EquivalenceCheckingManager.cpp:354-359, bindings.cpp:50-71). *)
From Coq Require Import String List Bool ZArith.
From Verif Require Import PyConfig.
Import ListNotations.

Section Verify.
Variables V C R : Type.                             (* option values, circuits, results *)
Variable convert : sect -> string -> V -> option V. (* as in PyConfig *)
Variable gate_cost : V.
Variable path : string -> V.
Variable default : pyconfig V.                      (* Configuration() *)
Variable parameterised : C -> bool.                 (* parameterized.py:19-20 *)
Variable check_parameterized : C -> C -> pyconfig V -> R.  (* parameterized.py:109-220 *)
Variable check : C -> C -> pyconfig V -> R.         (* verify.py:57-62: construct, run, get_results *)

(** the result of a call or its exception *)
Inductive outcome := Returned (r : R) | Raised (e : error).
(** verify.py:55-62, from the configuration object on: the object afterwards and the outcome *)
Definition verify (c : pyconfig V) (c1 c2 : C) (kwargs : list (string * V)) : pyconfig V * outcome :=
  match augment convert c kwargs with
  | (c, Some e) => (c, Raised e)
  | (c, None) => (c, Returned (if parameterised c1 || parameterised c2 then check_parameterized c1 c2 c else check c1 c2 c))
  end.
(** verify_compilation_flow.py:74-98 *)
Definition verify_comp (c : pyconfig V) (c1 c2 : C) (level : Z) (m : ancilla_mode) (kwargs : list (string * V)) : pyconfig V * outcome :=
  match verify_compilation convert gate_cost path c kwargs level m with
  | (c, Some e) => (c, Raised e)
  | (c, None) => verify c c1 c2 []
  end.
(** a call: with the caller's configuration object, or with none (verify.py:49-50, verify_compilation_flow.py:71-72) *)
Record request := mkReq { q_shared : bool; q_c1 : C; q_c2 : C; q_kwargs : list (string * V); q_flow : option (Z * ancilla_mode) }.
Definition serve (c : pyconfig V) (q : request) : pyconfig V * outcome :=
  let c0 := if q_shared q then c else default in
  let '(c', o) := match q_flow q with None => verify c0 (q_c1 q) (q_c2 q) (q_kwargs q) | Some (l, m) => verify_comp c0 (q_c1 q) (q_c2 q) l m (q_kwargs q) end in
  (if q_shared q then c' else c, o).
(** a history of calls: the caller's object afterwards and the outcomes *)
Fixpoint history (c : pyconfig V) (qs : list request) : pyconfig V * list outcome :=
  match qs with
  | [] => (c, [])
  | q :: r => let (c, o) := serve c q in let (c, os) := history c r in (c, o :: os)
  end.
End Verify.
Arguments Returned {R}. Arguments Raised {R}. Arguments mkReq {V C}. Arguments q_shared {V C}. Arguments q_c1 {V C}. Arguments q_c2 {V C}.
Arguments q_kwargs {V C}. Arguments q_flow {V C}. Arguments verify {V C R}. Arguments verify_comp {V C R}. Arguments serve {V C R}. Arguments history {V C R}.
