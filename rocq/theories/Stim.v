(** Model of DDSimulationChecker::setRandomInitialState: which qubits of a pair of circuits the stimuli are random on. No proofs.
    The generator is that of StateGen.v, the circuits are those of Prep.v. *)
From Coq Require Import List Bool NArith Arith.
From Verif Require Import Criterion Config StateGen Prep Passes.

(** src/checker/dd/DDSimulationChecker.cpp:45-51 with nqubits from include/checker/EquivalenceChecker.hpp:25; [t] is
    simulation.stateType. getNqubitsWithoutAncillae is [primary] (Passes.v). Only the first circuit is asked for its ancillaries *)
Definition setRandomInitialState {A MT : Type} (word : MT -> N * MT) (unif : N -> MT -> N * MT) (ndebug : bool) (fuel : nat)
    (c1 c2 : circ A) (t : stateType) (g : gen MT) : gres MT stimulus :=
  let nqubits := Nat.max (q_n c1) (q_n c2) in
  let nancillary := nqubits - primary c1 in
  generate MT word unif ndebug fuel nqubits nancillary t g.
