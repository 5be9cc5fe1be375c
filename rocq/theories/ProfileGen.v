(** Model of the generation of a gate-cost profile from its gate tables to the file, src/mqt/qcec/compilation_flow_profiles.py:18-305, 367-426.
    No proofs in this file.

    A circuit with one gate is described by the call that creates it: the number of qubits of the circuit, the method, the number of
    parameters and the qubits. What is left out: the values of the parameters (drawn from a generator seeded with a constant, lines 167-168
    and 195-196) and the transpilation: the cost of a circuit (compute_cost, lines 211-221) is an arbitrary function of the optimisation
    level and the call. *)
From Coq Require Import String List Bool Arith ZArith NArith QArith.
From Verif Require Import PyConfig PyProfile Schemes.
Import ListNotations.
Local Open Scope string_scope.

(** one dict of lines 40-137. "controls" is a number in the general sets and a range in the others: a list here (lines 249-251 pack the
    number) *)
Record gate_set := mkSet { gs_qubits : nat; gs_params : nat; gs_controls : list nat; gs_mode : option ancilla_mode; gs_ancillas : option nat; gs_gates : list string }.
(** a general set has neither "mode" nor "ancilla_qubits" *)
Definition general_set (qubits params controls : nat) (gates : list string) : gate_set := mkSet qubits params [controls] None None gates.

(** lines 40-100 and 139-150 *)
Definition general_gates : list gate_set :=
  [ general_set 1 0 0 ["x"; "y"; "z"; "h"; "s"; "sdg"; "t"; "tdg"; "sx"; "sxdg"];
    general_set 1 1 0 ["p"; "rx"; "ry"; "rz"];
    general_set 1 3 0 ["u"];
    general_set 2 0 0 ["swap"; "iswap"; "dcx"; "ecr"];
    general_set 2 1 0 ["rxx"; "ryy"; "rzz"; "rzx"];
    general_set 1 0 1 ["x"; "y"; "z"; "h"; "sx"];
    general_set 1 1 1 ["p"; "rx"; "ry"; "rz"];
    general_set 1 4 1 ["u"];
    general_set 2 0 1 ["swap"];
    general_set 1 0 2 ["x"] ].
(** lines 102-103: range(2, max_controls + 1) *)
Definition max_controls : nat := 11.
Definition control_range : list nat := seq 2 (max_controls + 1 - 2).
(** lines 130-137 and 152 *)
Definition multi_controlled_gates : list gate_set := [mkSet 1 1 control_range None (Some 0%nat) ["p"]].
(** lines 104-129, 153-155 and 367-371 *)
Definition gate_collection_for_mode (m : ancilla_mode) : list gate_set :=
  match m with
  | NoAncilla => [mkSet 1 0 control_range (Some NoAncilla) (Some 0%nat) ["x"]]
  | Recursion => [mkSet 1 0 control_range (Some Recursion) (Some 1%nat) ["x"]]
  | VChain => [mkSet 1 0 control_range (Some VChain) None ["x"]]
  end.

(** getattr(qc, method)(...) on a circuit with [width] qubits: with the qubits by position (line 170), or by keywords (lines 198-207; the
    ancillaries and the mode are passed together or not at all) *)
Inductive call :=
| Positional (width : nat) (method : string) (nparams : nat) (qubits : list nat)
| Keywords (width : nat) (method : string) (nparams : nat) (controls : list nat) (target : nat) (ancillas : option (list nat * ancilla_mode)).

(** "c" * n *)
Fixpoint cs (n : nat) : string := match n with O => "" | S k => "c" ++ cs k end.
(** lines 161-172 *)
Definition create_general_gate (qubits params controls : nat) (identifier : string) : call :=
  let required := (qubits + controls)%nat in
  Positional required (cs controls ++ identifier) params (seq 0 required).
(** lines 175-208. mode == "recursion" compares with the value of the mode (lines 26-32); None is not equal to it *)
Definition create_multi_controlled_gate (qubits params controls : nat) (mode : option ancilla_mode) (ancilla_qubits : option nat) (identifier : string) : call :=
  let required := (qubits + controls)%nat in
  let a := match ancilla_qubits with None => (controls - 2)%nat | Some a => a end in
  let a := match mode with Some Recursion => if (controls <? 5)%nat then 0%nat else a | _ => a end in
  let required := (required + a)%nat in
  Keywords required ("mc" ++ identifier) params (seq 0 controls) controls
    (match mode with Some m => Some (seq (controls + 1) a, m) | None => None end).

Inductive gate_type := GENERAL | MULTI_CONTROLLED.
Section Generate.
(** compute_cost for the default basis gates, lines 211-221 and 238-239 *)
Variable cost : Z -> call -> Z.
(** lines 313-319, see PyProfile *)
Variable solve : list (list Z) -> list Z -> option (list Q).

(** lines 256-267 *)
Definition create (t : gate_type) (s : gate_set) (control : nat) (gate : string) : call :=
  match t with
  | GENERAL => create_general_gate (gs_qubits s) (gs_params s) control gate
  | MULTI_CONTROLLED => create_multi_controlled_gate (gs_qubits s) (gs_params s) control (gs_mode s) (gs_ancillas s) gate
  end.
(** lines 231-270 *)
Definition create_gate_profile_data (collection : list gate_set) (t : gate_type) (level : Z) : dict :=
  fold_left (fun d s =>
    fold_left (fun d gate =>
      fold_left (fun d control => dset d (gate, control) (cost level (create t s control gate))) (gs_controls s) d) (gs_gates s) d) collection [].

(** lines 375-421: the profile; None: an exception *)
Definition profile_data (level : Z) (m : ancilla_mode) : option dict :=
  generate_profile solve (create_gate_profile_data general_gates GENERAL level)
                         (create_gate_profile_data multi_controlled_gates MULTI_CONTROLLED level)
                         (create_gate_profile_data (gate_collection_for_mode m) MULTI_CONTROLLED level).

(** lines 300-305 *)
Definition write_line (e : pkey * Z) : string := fst (fst e) ++ " " ++ dec (N.of_nat (snd (fst e))) ++ " " ++ str_int (snd e) ++ nl.
Definition write_profile_data_to_file (filename version : string) (d : dict) : string :=
  "# " ++ filename ++ ", Qiskit version: " ++ version ++ nl ++ String.concat "" (map write_line d).
(** lines 375-426: the content of the file that is written (joinpath is [join]) *)
Definition profile_file (join : string -> string) (version : string) (level : Z) (m : ancilla_mode) : option string :=
  match profile_data level m with
  | None => None
  | Some d => Some (write_profile_data_to_file (join (generate_profile_name level m)) version d)
  end.
End Generate.
