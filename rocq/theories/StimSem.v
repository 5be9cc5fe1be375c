(** The state vectors of the stimuli (StateGen.v) on the logical qubits [0 .. n-1]. Definitions only. *)
From mathcomp Require Import all_ssreflect all_fingroup all_algebra.
From Verif Require Import StateGen Qubits DDSem DDFlow.
Set Implicit Arguments.
Unset Strict Implicit.
Unset Printing Implicit Defensive.
Import GRing.Theory Num.Theory.
Local Open Scope ring_scope.

Section Ket.
Variables (C : numClosedFieldType) (n : nat).
Local Notation vec := (vec C [finType of 'I_n]).
(** amplitudes of the single-qubit basis states (dd::BasisStates, mqt-core): |0>, |1>, (|0> +- |1>)/sqrt 2, (|0> +- i|1>)/sqrt 2 *)
Definition amp (b : bstate) (v : bool) : C :=
  match b with
  | Bzero => (~~ v)%:R
  | Bone => v%:R
  | Bplus => (sqrtC 2%:R)^-1
  | Bminus => (if v then -1 else 1) / sqrtC 2%:R
  | Bright => (if v then 'i else 1) / sqrtC 2%:R
  | Bleft => (if v then - 'i else 1) / sqrtC 2%:R
  end.
(** makeBasisState: the product of the states of the qubits, qubit [q] in state number [q] of the list *)
Definition product_state (l : seq bstate) : vec := \col_i \prod_(q : 'I_n) amp (nth Bzero l q) ((enum_val i : basis [finType of 'I_n]) q).
(** the state vector of a stimulus; [clifford] gives the states of the random Clifford circuits (mqt-core, not modelled) *)
Definition ket (clifford : stab -> vec) (s : stimulus) : vec :=
  match s with
  | SBits l => product_state [seq (if b then Bone else Bzero) | b <- l]
  | SBases l => product_state l
  | SStab x => clifford x
  end.
(** what is assumed of those states: unit vectors with zeros on the qubits from st_qubits on (StateGenerator.cpp:147-152 adds |0> there) *)
Definition clifford_states (clifford : stab -> vec) : Prop :=
  forall x, fits [set q : 'I_n | (st_qubits x <= q)%N] (clifford x).
End Ket.
