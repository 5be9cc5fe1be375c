(** Specification vocabulary for property C87: circuits without operations. No proofs.
    Source: src/EquivalenceCheckingManager.cpp:319-323 (two circuits without operations are declared equivalent), 224-227 (no pass is applied to
    them). The circuits are those of Prep.v, with initial layout and output permutation. *)
From Coq Require Import List Bool Arith.
From Verif Require Import Perm PermSpec Prep.

Section Spec.
Context {A : Type}.
Notation circ := (circ A).
(** qc::QuantumComputation::empty (mqt-core, recalled): there are no operations; layout and output permutation do not matter *)
Definition is_empty (c : circ) : bool := match q_ops c with nil => true | _ => false end.
(** in a circuit without operations: what enters as logical qubit [q] is read out as logical qubit [r] (both are on the same physical qubit) *)
Definition read_as (c : circ) (q r : nat) : Prop := exists p, maps (q_lay c) p q /\ maps (q_out c) p r.
(** both circuits have the logical qubit [q], and it is an input of at least one of them *)
Definition shared_input (c1 c2 : circ) (q : nat) : Prop := q < q_n c1 /\ q < q_n c2 /\ (q_anc c1 q && q_anc c2 q) = false.
(** the two circuits read out the inputs that they share as the same qubits *)
Definition same_readout (c1 c2 : circ) : Prop := forall q r, shared_input c1 c2 q -> (read_as c1 q r <-> read_as c2 q r).
End Spec.
