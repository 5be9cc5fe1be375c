(** Vocabulary of C69: the flows with configuration.functionality.checkPartialEquivalence. Definitions only. *)
From Coq Require Import BinNums.
From mathcomp Require Import all_ssreflect all_fingroup all_algebra.
From Verif Require Import Criterion Config SeqFlow SeqSpec ParFlow ParSpec Schemes DDCheck DDSpec Qubits DDSem DDFlow PartialEq.
Set Implicit Arguments.
Unset Strict Implicit.
Unset Printing Implicit Defensive.
Import GRing.Theory Num.Theory.
Local Open Scope ring_scope.

Section PartialFlow.
Variables (C : numClosedFieldType) (Lg : finType) (Ph : eqType).
Local Notation mat := (mat C Lg).
Local Notation vec := (vec C Lg).
Local Notation gate := (gate C Ph).
Local Notation circuit := (circuit Ph Lg gate).
Local Notation package := (package C Lg Ph).

(** [describes] (DDFlow.v) for runs with checkPartialEquivalence: the alternating checker tests with isCloseToIdentity for the common garbage
    ([isClose], src/checker/dd/DDAlternatingChecker.cpp:99-112), the construction and the simulation checker reduce each circuit's own garbage
    [G1], [G2] before the comparison (src/checker/dd/DDEquivalenceChecker.cpp:187-207, include/checker/dd/TaskManager.hpp:126-138) *)
Definition describes_partial (q : package) (isClose : mat -> bool) (s : schemes) (zero : Ph) (c1 c2 : circuit) (A1 A2 G1 G2 : {set Lg}) (eps : C)
    (Stim Gen : Type) (stim : Stim -> vec) (e : env Stim Gen) : Prop :=
  [/\ e_canHandle e = can_handle c1 c2 A1 A2,
      exists y, alt_run (q_equals q) (q_view q) zero (q_size q) (s_alt s) never c1 c2 (A1 :&: A2) (alt_check isClose (q_weight q)) NoInformation
                = RVerdict _ _ _ _ _ (mcrit (e_alt e)) y,
      exists y, con_run_partial (q_equals q) (q_view q) zero (s_con s) never c1 c2 A1 A2 G1 G2 (con_check (q_close q) (q_nodeM q) (q_weightM q)) NoInformation
                = RVerdict _ _ _ _ _ (mcrit (e_con e)) y &
      forall t, exists y, sim_run_partial (q_equals q) (q_view q) zero (s_sim s) never c1 c2 (stim t) G1 G2 (sim_check (q_nodeV q) (q_weightV q) eps) NoInformation
                = RVerdict _ _ _ _ _ (scrit (e_sim e t)) y].
(** the verdict answers the question [P]: a (possibly phase-) equivalence if it holds, 'not equivalent' if it does not *)
Definition answers (P : Prop) (v : criterion) : Prop :=
  (v = Equivalent \/ v = EquivalentUpToGlobalPhase <-> P) /\ (v = NotEquivalent <-> ~ P).
(** one of the circuits leaves all common ancillaries alone *)
Definition one_leaves_alone (c1 c2 : circuit) (A : {set Lg}) : Prop :=
  (forall q, q \in A -> leaves_alone c1 q) \/ (forall q, q \in A -> leaves_alone c2 q).
End PartialFlow.
