(** Small circuits for the theorems about partial equivalence. Definitions only. *)
From Coq Require Import BinNums.
From mathcomp Require Import all_ssreflect all_fingroup all_algebra.
From Verif Require Import Criterion Schemes DDCheck DDSpec Qubits DDSem DDFlow DDDemo PartialEq.
Set Implicit Arguments.
Unset Strict Implicit.
Unset Printing Implicit Defensive.
Import GRing.Theory Num.Theory.
Local Open Scope ring_scope.

Section Demo.
Variable C : numClosedFieldType.
(** the rotation with cosine 3/5 and sine 4/5, and Z *)
Definition rmat (a b : seq bool) : C :=
  if a == b then 3%:R / 5%:R else if head false a then 4%:R / 5%:R else - (4%:R / 5%:R).
Definition zmat (a b : seq bool) : C := if a == b then (if head false a then -1 else 1) else 0.
Definition rgate (q : bool) : gate C bool_eqType := Gate [::] [:: q] rmat false.
Definition zgate (q : bool) : gate C bool_eqType := Gate [::] [:: q] zmat false.
(** on qubit 1; qubit 0 is idle *)
Definition rot_circuit := qc2 id id (map (OGate bool (gate C bool_eqType)) [:: rgate true]).
Definition zrot_circuit := qc2 id id (map (OGate bool (gate C bool_eqType)) [:: zgate true; rgate true]).

(** RXX rotation with cosine 3/5 and sine 4/5; data qubit [None], ancillaries [Some false] and [Some true] *)
Definition xxmat (a b : seq bool) : C := if a == b then 3%:R / 5%:R else if a == map negb b then 'i * (4%:R / 5%:R) else 0.
Notation obool := (option bool).
Definition xxgate (t : bool) : gate C [eqType of obool] := Gate [::] [:: None; Some t] xxmat false.
(** RXX on the data qubit and ancillary [Some t]; only the data qubit is measured *)
Definition xx_circuit (t : bool) : circuit obool obool (gate C [eqType of obool]) :=
  mkCircuit obool obool (gate C [eqType of obool]) [:: OGate obool _ (xxgate t)]
    [:: None; Some false; Some true] id [:: (None, None)].
Definition two_anc : {set [finType of obool]} := [set Some false; Some true].

(** a garbage-aware closeness test *)
Definition demo_partial (Lg : finType) (G : {set Lg}) (F : mat C Lg) : bool :=
  [forall x, forall y, same_out G x y || (entry F x y == 0)].
End Demo.
