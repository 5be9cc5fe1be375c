(** Vocabulary for C88: simulating every computational basis state. No proofs. *)
From Coq Require Import List Bool NArith Arith.
From Verif Require Import Criterion Config SeqFlow StateGen Prep Passes.

(** simulation is the only checker that is configured *)
Definition only_simulations (c : config) : Prop :=
  runSimulationChecker (exec c) = true /\ runAlternatingChecker (exec c) = false /\ runConstructionChecker (exec c) = false /\ runZXChecker (exec c) = false.
(** a computational basis state of [n] qubits with zeros from qubit [k] on *)
Definition basis_input (n k : nat) (l : list bool) : Prop := length l = n /\ forall i, k <= i -> nth i l false = false.
(** some input of that kind is refuted *)
Definition refuting_input {Gen} (n k : nat) (e : env stimulus Gen) (l : list bool) : Prop := basis_input n k l /\ e_sim e (SBits l) = SNotEquivalent.
