(** Two circuits whose ancillary qubit is the first one: a counterexample for the stimuli. Definitions only. *)
From mathcomp Require Import all_ssreflect all_fingroup all_algebra.
From Verif Require Import Prep DDCheck Qubits DDDemo.
Set Implicit Arguments.
Unset Strict Implicit.
Unset Printing Implicit Defensive.

Section Demo.
Variable C : numClosedFieldType.
Local Notation gate := (gate C nat_eqType).
Local Notation op := (op nat gate).
(** CX with control 0 and target 1 *)
Definition cx01 : op := OGate nat gate (Gate [:: (0%N, true)] [:: 1%N] (@xmat C) false).
(** two qubits, trivial layout and outputs; qubit 0 is ancillary *)
Definition anc0 (l : seq op) : circ op :=
  mkCirc l 2 [:: (0%N, 0%N); (1%N, 1%N)] [:: (0%N, 0%N); (1%N, 1%N)] (fun q => q == 0%N) (fun _ => false).
End Demo.
