(** Small circuits and diagrams on two qubits: non-vacuity examples and counterexamples for the ZX checker. Definitions only. *)
From mathcomp Require Import all_ssreflect all_fingroup all_algebra.
From Verif Require Import Criterion Perm PermSpec ZX ZXSpec DDCheck DDSpec Qubits DDSem ZXSem.
Set Implicit Arguments.
Unset Strict Implicit.
Unset Printing Implicit Defensive.
Import GRing.Theory Num.Theory.
Local Open Scope ring_scope.

Section Demo.
Variable C : numClosedFieldType.
(** [n] wires and nothing else: input [i] is connected with output [t i], by a Hadamard edge if [h i] *)
Definition wires_diagram n (t : {perm 'I_n}) (h : 'I_n -> bool) : diagram C n n [finType of bool * 'I_n] :=
  Diagram (fun _ => Boundary) (fun k => ((false, k), (true, t k), h k)) (fun i => (false, i)) (fun i => (true, i))
    (fun v => Some (nat_of_ord v.2)).

Local Notation gate := (gate C nat_eqType).
Local Notation Lg := [finType of 'I_2].
(** Hadamard gate *)
Definition hmat (a b : seq bool) : C := ekernel C true (head false a) (head false b).
Definition hgate (q : nat) : gate := Gate [::] [:: q] hmat false.
(** two qubits, trivial layout, output permutation [O] *)
Definition lay2 (i : nat) : 'I_2 := inord i.
Definition zqc (l : seq (op nat gate)) (O : seq (nat * 'I_2)) : circuit nat Lg gate :=
  mkCircuit nat Lg gate l [:: 0%N; 1%N] lay2 O.
Definition Had q := OGate nat gate (hgate q).
Definition ZSwap := OSwap nat gate 0%N 1%N.
Definition out_id : seq (nat * 'I_2) := [:: (0%N, lay2 0%N); (1%N, lay2 1%N)].
Definition out_swap : seq (nat * 'I_2) := [:: (0%N, lay2 1%N); (1%N, lay2 0%N)].

(** qubit 1 is prepared in state 0 and found in state 0: the operator that remains on qubit 0 (makeAncilla of mqt-core on an input and
    an output, recalled; ZXChecker.cpp:41-50) *)
Definition with0 (x : basis [finType of 'I_1]) : basis Lg := [ffun i : 'I_2 => (i == lay2 0%N) && x ord0].
Definition post_selected (V : mat C Lg) : mat C [finType of 'I_1] := mx (fun x y => entry V (with0 x) (with0 y)).
End Demo.
