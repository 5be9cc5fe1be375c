(** C74: the answers of undisturbed runs behave like a relation between circuits: the configuration, the flow, the schedule, the random
    choices and the order of the circuits do not matter; a circuit is equivalent to itself; equivalent circuits can be exchanged in further
    checks - as long as they have the same qubits. [answers n c1 c2 v]: some manager constructed for [c1], [c2] and run without disturbance,
    under whatever configuration with an exact checker, ends with verdict [v] (Relation.v). Property file. *)
From Coq Require Import BinNums NArith List.
From mathcomp Require Import all_ssreflect all_fingroup all_algebra.
From Verif Require Import Criterion Config SeqFlow SeqSpec ParFlow ParSpec Prep Passes Schemes DDCheck Qubits DDSem PrepSem PropPrepSem Construct Relation RelationProofs RelationDemo.
Set Implicit Arguments.
Unset Strict Implicit.
Unset Printing Implicit Defensive.
Import GRing.Theory Num.Theory.
Local Open Scope ring_scope.

Section P.
Variable C : numClosedFieldType.
Local Notation circ := (circ (op nat (gate C nat_eqType))).

(** only the three definite verdicts occur *)
Theorem C74_definite : forall n (c1 c2 : circ) v, answers n c1 c2 v -> [\/ v = Equivalent, v = EquivalentUpToGlobalPhase | v = NotEquivalent].
Proof. exact: (@answers_definite C). Qed.

(** whatever the two configurations, flows, application schemes, optimisation passes, random stimuli and schedules *)
Theorem C74_settings_irrelevant : forall n (c1 c2 : circ) v v', reads_all c1 -> reads_all c2 -> answers n c1 c2 v -> answers n c1 c2 v' -> v = v'.
Proof. exact: (@answers_determined C). Qed.

(** exchanging the circuits does not change the answer *)
Theorem C74_order_irrelevant : forall n (c1 c2 : circ) v v', reads_all c1 -> reads_all c2 -> answers n c1 c2 v -> answers n c2 c1 v' -> v = v'.
Proof. exact: (@answers_sym C). Qed.

(** a circuit is equivalent to itself *)
Theorem C74_self : forall n (c : circ) v, reads_all c -> answers n c c v -> v = Equivalent.
Proof. exact: (@answers_self C). Qed.

(** circuits found equivalent get the same answer against any third circuit *)
Theorem C74_exchangeable : forall n (c1 c2 c3 : circ) v v', reads_all c1 -> reads_all c2 -> reads_all c3 -> same_qubits c1 c2 -> same_qubits c2 c3 ->
  answers n c1 c2 Equivalent -> answers n c1 c3 v -> answers n c2 c3 v' -> v = v'.
Proof. exact: (@answers_congruent C). Qed.

(** a chain of positive answers, up to global phase or not, never ends in 'not equivalent' *)
Theorem C74_transitive : forall n (c1 c2 c3 : circ) v v' v'', reads_all c1 -> reads_all c2 -> reads_all c3 -> same_qubits c1 c2 -> same_qubits c2 c3 ->
  answers n c1 c2 v -> answers n c2 c3 v' -> answers n c1 c3 v'' -> v <> NotEquivalent -> v' <> NotEquivalent -> v'' <> NotEquivalent.
Proof. exact: (@answers_transitive C). Qed.

(** without [same_qubits] it may: a qubit that only one circuit has counts as ancillary in the comparison. H followed by CX(1,0) on two qubits
    is equivalent to H on one qubit, which is equivalent to H on two qubits; the first and the last are not equivalent. *)
Theorem C74_transitive_any_size_refuted : exists c1 c2 c3 : circ, [/\ reads_all c1, reads_all c2 & reads_all c3] /\
  [/\ answers 1 c1 c2 Equivalent, answers 1 c2 c3 Equivalent & answers 1 c1 c3 NotEquivalent].
Proof.
exists (big_cx C), (small C), (big C); split; first by split; exact: idq_reads_all.
have [v1 A1] := small_cx_answers C; have [v2 A2] := small_big_answers C; have [v3 A3] := cx_big_answers C.
by have E1 := small_cx_value A1; have E2 := small_big_value A2; have E3 := cx_big_value A3; subst.
Qed.
(** the hypotheses are met: the runs of the refutation above are instances of [answers]; two of these circuits have the same qubits, and there are runs for them in either order and for one of
    them against itself *)
Example C74_hypotheses_met : [/\ reads_all (big_cx C), reads_all (big C), same_qubits (big_cx C) (big C) & same_qubits (big C) (big C)] /\
  [/\ answers 1 (big_cx C) (big C) NotEquivalent, answers 1 (big C) (big_cx C) NotEquivalent & answers 1 (big C) (big C) Equivalent].
Proof.
have R1 : reads_all (big_cx C) := @idq_reads_all C _ _; have R2 : reads_all (big C) := @idq_reads_all C _ _; split; first by [].
have [v1 A1] := cx_big_answers C; have [v2 A2] := big_cx_answers C; have [v3 A3] := big_big_answers C.
by have E1 := cx_big_value A1; have E2 := answers_sym R1 R2 A1 A2; have E3 := answers_self R2 A3; subst.
Qed.
End P.
Print Assumptions C74_definite.
Print Assumptions C74_settings_irrelevant.
Print Assumptions C74_order_irrelevant.
Print Assumptions C74_self.
Print Assumptions C74_exchangeable.
Print Assumptions C74_transitive.
Print Assumptions C74_transitive_any_size_refuted.
