(** Partial equivalence: what users mean by it, and what the decision-diagram checkers do when
    configuration.functionality.checkPartialEquivalence is set. Definitions only. *)
From Coq Require Import BinNums.
From mathcomp Require Import all_ssreflect all_fingroup all_algebra.
From Verif Require Import Criterion Schemes DDCheck DDSpec Qubits DDSem.
Set Implicit Arguments.
Unset Strict Implicit.
Unset Printing Implicit Defensive.
Import GRing.Theory Num.Theory.
Local Open Scope ring_scope.

Section PartialEq.
Variables (C : numClosedFieldType) (Lg : finType) (Ph : eqType).
Local Notation mat := (mat C Lg).
Local Notation vec := (vec C Lg).
Local Notation basis := (basis Lg).
Local Notation gate := (gate C Ph).
Local Notation circuit := (circuit Ph Lg gate).

(** ** specification (docs/source/PartialEquivalence.ipynb: "Two circuits are considered partially equivalent if, for each
    possible input state, they have the same probabilities for each measurement outcome") *)
(** amplitude of a basis state *)
Definition amp (psi : vec) (x : basis) : C := psi (enum_rank x) ord0.
(** [x] and [m] show the same outcome when all qubits but the garbage [G] are measured *)
Definition same_out (G : {set Lg}) (x m : basis) : bool := [forall q, (q \notin G) ==> (x q == m q)].
(** probability of the outcome shown by [m] when all qubits but [G] are measured in state [psi] *)
Definition prob (G : {set Lg}) (psi : vec) (m : basis) : C := \sum_(x : basis | same_out G x m) `|amp psi x| ^+ 2.
(** for every state with zeros on the ancillaries [A], same probabilities for each measurement outcome *)
Definition partially_equivalent (A G : {set Lg}) (V1 V2 : mat) : Prop :=
  forall phi : vec, inner phi phi = 1 -> proj0 C A *m phi = phi -> forall m, prob G (V1 *m phi) m = prob G (V2 *m phi) m.
(** a basis state as a vector *)
Definition ket (y : basis) : vec := \col_i (enum_val i == y)%:R.
(** zeros on the ancillaries *)
Definition zeros (A : {set Lg}) (y : basis) : bool := [forall q in A, ~~ y q].
(** the same, but only for computational basis states as inputs *)
Definition same_on_basis (A G : {set Lg}) (V1 V2 : mat) : Prop :=
  forall y, zeros A y -> forall m, prob G (V1 *m ket y) m = prob G (V2 *m ket y) m.

(** ** model *)
(** what isCloseToIdentity with garbage qubits and checkCloseToOne = false accepts (mqt-core, recalled): it only inspects
    the off-diagonal successors of nodes whose qubit is not garbage *)
Definition blocks (G : {set Lg}) (F : mat) : Prop := forall x y, ~~ same_out G x y -> entry F x y = 0.
Definition partial_test (G : {set Lg}) (isClose : mat -> bool) : Prop := forall F, isClose F <-> blocks G F.
(** DDAlternatingChecker.cpp:99-122 with checkPartialEquivalence is [alt_check] (DDSem.v) with such an [isClose];
    [G] are the qubits that are garbage in both circuits. *)

(** dd::Package::reduceGarbage with normalizeWeights = true (mqt-core, recalled): the magnitudes of the entries that only
    differ on garbage qubits of the row are added up (square root of the sum of squares) in the row with zeros there *)
Definition reduce_mx (G : {set Lg}) (M : mat) : mat :=
  mx (fun x y => if zeros G x then sqrtC (\sum_(x' : basis | same_out G x' x) `|entry M x' y| ^+ 2) else 0).
Definition reduce_vec (G : {set Lg}) (v : vec) : vec :=
  \col_i (if zeros G (enum_val i) then sqrtC (\sum_(x' : basis | same_out G x' (enum_val i)) `|amp v x'| ^+ 2) else 0).

Variables (geqb : gate -> gate -> bool) (view : op Ph gate -> opview) (zero : Ph).
Local Notation run ST := (run Ph Lg gate mat eq_op eq_op (@xpkg C Lg Ph) (@g_swap C Ph) geqb view ST).
(** DDConstructionChecker::run with checkPartialEquivalence: reduceGarbage after reduceAncillae
    (DDEquivalenceChecker.cpp:187-207, TaskManager.hpp:130-137); [G1], [G2] are the garbage qubits of the circuits *)
Definition con_run_partial (sch : appscheme) (done : nat -> bool) (c1 c2 : circuit) (A1 A2 G1 G2 : {set Lg})
    (check : mat * mat -> criterion) (old : criterion) :=
  run (mat * mat)%type (con_chk C Lg) sch done zero c1 c2
    (fun s => (s.1 *m proj0 C A1, s.2)) (fun s => (s.1, s.2 *m proj0 C A2))
    (fun s => (reduce_mx G1 s.1, s.2)) (fun s => (s.1, reduce_mx G2 s.2)) true check (proj0 C A1, proj0 C A2) old.
(** DDSimulationChecker::run with checkPartialEquivalence *)
Definition sim_run_partial (sch : appscheme) (done : nat -> bool) (c1 c2 : circuit) (phi : vec) (G1 G2 : {set Lg})
    (check : vec * vec -> criterion) (old : criterion) :=
  run (vec * vec)%type (sim_chk C Lg) sch done zero c1 c2 id id
    (fun s => (reduce_vec G1 s.1, s.2)) (fun s => (s.1, reduce_vec G2 s.2)) true check (phi, phi) old.
End PartialEq.
