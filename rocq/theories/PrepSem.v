(** What the preparation of the circuits (Prep.v) means for their operators. Definitions only. *)
From mathcomp Require Import all_ssreflect all_fingroup all_algebra.
From Verif Require Import Perm PermSpec Prep PrepSpec DDCheck DDSpec Qubits.
Set Implicit Arguments.
Unset Strict Implicit.
Unset Printing Implicit Defensive.
Import GRing.Theory Num.Theory.
Local Open Scope ring_scope.

(** the operator [V] on the qubits [Lg'], seen on the larger set [Lg] of qubits: qubit [q] of [V] is [f q], the other qubits are left alone *)
Definition lift (C : numClosedFieldType) (Lg Lg' : finType) (f : Lg' -> Lg) (V : mat C Lg') : mat C Lg :=
  mx (fun x y => if [forall q, (q \notin codom f) ==> (x q == y q)] then entry V [ffun q => x (f q)] [ffun q => y (f q)] else 0).

Section Circuits.
Variable C : numClosedFieldType.
Local Notation gate := (gate C nat_eqType).
Local Notation op := (op nat gate).
(** Operation::actsOn (mqt-core, recalled): the qubit is a control or target of the operation or of a part of it *)
Definition on_qubits (o : op) (p : nat) : bool := p \in @op_qubits C nat_eqType o.
(** the circuit with its layout and output permutation, on the logical qubits [0 .. n]; logical qubits that are not in the layout have a
    wire, too *)
Definition as_circuit (n : nat) (c : circ op) : circuit nat_eqType [finType of 'I_n.+1] gate :=
  mkCircuit nat_eqType [finType of 'I_n.+1] gate (q_ops c) (map fst (q_lay c))
    (fun p => inord (if qfind p (q_lay c) is Some l then l else 0%N)) [seq (e.1, inord e.2) | e <- q_out c].
(** operations act on qubits of the layout *)
Definition acts_inside (c : circ op) : Prop := forall o p, List.In o (q_ops c) -> on_qubits o p -> keys (q_lay c) p.
(** garbage qubits are not read out (setLogicalQubitGarbage drops the output) *)
Definition garbage_unread (c : circ op) : Prop := forall v, q_gar c v = true -> ~ values (q_out c) v.
(** the circuit's own ancillaries (QuantumComputation::getAncillary) *)
Definition own_ancillaries (n : nat) (c : circ op) : {set 'I_n.+1} := [set q : 'I_n.+1 | q_anc c q].
(** logical qubits that are ancillary in both circuits; a qubit that only one of the circuits has counts as such *)
Definition common_ancillaries (n : nat) (c1 c2 : circ op) : {set 'I_n.+1} :=
  [set q : 'I_n.+1 | (minn (q_n c1) (q_n c2) <= q)%N || (q_anc c1 q && q_anc c2 q)].
End Circuits.
