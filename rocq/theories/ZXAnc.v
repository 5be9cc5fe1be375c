(** Circuits with ancillary qubits in the ZX checker: what its constructor makes of them. Definitions only.

    [w] data qubits [0 .. w-1] and [a] ancillary qubits [w .. w+a-1] (those of circuit 1: ZXChecker.cpp:42-45 takes their number from
    it and fixes the same qubits in both diagrams). *)
From mathcomp Require Import all_ssreflect all_fingroup all_algebra.
From Verif Require Import Criterion Perm PermSpec ZX ZXSpec DDCheck DDSpec Qubits DDSem ZXSem.
Set Implicit Arguments.
Unset Strict Implicit.
Unset Printing Implicit Defensive.
Import GRing.Theory Num.Theory.
Local Open Scope ring_scope.

Section ZXAnc.
Variables (C : numClosedFieldType) (w a : nat).
Local Notation Lg := [finType of 'I_(w + a)].
Local Notation Dt := [finType of 'I_w].
Local Notation gate := (gate C nat_eqType).
Local Notation circuit := (circuit nat_eqType Lg gate).

(** the ancillary qubits *)
Definition ancillaries : {set 'I_(w + a)} := [set q : 'I_(w + a) | (w <= q)%N].
(** the basis state with [x] on the qubits [l i] and 0 elsewhere *)
Definition with_zeros (l : 'I_w -> 'I_(w + a)) (x : basis Dt) : basis Lg := [ffun q => [exists i, (l i == q) && x i]].
(** makeAncilla (mqt-core, recalled) for all ancillaries, ZXChecker.cpp:41-50: the input wires of the ancillaries are prepared in state 0,
    and all output wires but the wires [l i] are found in state 0; [l i] is the wire of the i-th remaining output *)
Definition remaining (l : 'I_w -> 'I_(w + a)) (c : circuit) : mat C Dt :=
  mx (fun x y => entry (wire_op c) (with_zeros l x) (with_zeros (lshift a) y)).
(** lines 44-49: output wire p(anc) is fixed, so that the remaining wires are those whose output is a data qubit *)
Definition data_wires (c : circuit) (l : 'I_w -> 'I_(w + a)) : Prop :=
  injective l /\ forall i, exists k (q : 'I_w), c_layout _ _ _ c k = l i /\ (k, lshift a q) \in c_output _ _ _ c.

(** the diagram [D] with other qubits stored with its vertices *)
Definition with_labels n m (V : finType) (D : diagram C n m V) (q : V -> option nat) : diagram C n m V :=
  Diagram (kind D) (edge D) (input D) (output D) q.
(** a well-formed diagram whose i-th input and output carry the wires [l1 i] and [l2 i]: after the inversion (line 51) the inputs are the
    remaining outputs of circuit 1 *)
Definition wf_labelled m (V : finType) (l1 l2 : 'I_w -> 'I_(w + a)) (D : diagram C w m V) : Prop :=
  (exists q, wf_diagram (with_labels D q)) /\
  forall i, qdata D (input D i) = Some (nat_of_ord (l1 i)) /\ qdata D (output D i) = Some (nat_of_ord (l2 i)).

(** the circuit with operator [V] returns its ancillaries: started with the ancillaries in state 0, it ends with them in state 0 *)
Definition returns_ancillaries (V : mat C Lg) : Prop := proj0 C ancillaries *m V *m proj0 C ancillaries = V *m proj0 C ancillaries.
(** the operator on the data qubits when the ancillaries start and end in state 0 *)
Definition on_data (V : mat C Lg) : mat C Dt := mx (fun x y => entry V (with_zeros (lshift a) x) (with_zeros (lshift a) y)).
(** the data outputs of the remaining wires with an index at which both garbage tests succeed *)
Definition skipped_data (g1 g2 : nat -> bool) (l : 'I_w -> 'I_(w + a)) (c : circuit) : {set 'I_w} :=
  [set q | [exists i : 'I_w, [&& g1 i, g2 i & has (fun e => (e.2 == lshift a q) && (c_layout _ _ _ c e.1 == l i)) (c_output _ _ _ c)]]].

(** the checker's answer for two such circuits ([anc]: one of them has an ancillary qubit), given the reduced diagram with global phase
    factor [ph] *)
Definition zx_answer_anc m (V : finType) (nd anc done : bool) (g1 g2 : nat -> bool) (c1 c2 : circuit) (D : diagram C w m V) (ph : C) : zres :=
  zx_run nd anc done g1 g2 (output_map c1) (layout_map c1) (w + a) (output_map c2) (layout_map c2) (w + a) (view (ph == 1) D).
End ZXAnc.
