(** Vocabulary of C74: which answers the constructor followed by an undisturbed run can give for two circuits, over all configurations,
    passes, schemes, environments, random choices and schedules. Definitions only. *)
From Coq Require Import BinNums NArith List Arith.
From mathcomp Require Import all_ssreflect all_fingroup all_algebra.
From Verif Require Import Criterion Config SeqFlow SeqSpec VerdictSpec ParFlow ParSpec Perm PermSpec Prep PrepSpec Passes PassesSpec StateGen Stim StimSpec
  Schemes DDCheck DDSpec Qubits DDSem DDFlow PrepSem Choice ParDecide StimSem Construct.
Set Implicit Arguments.
Unset Strict Implicit.
Unset Printing Implicit Defensive.
Import GRing.Theory Num.Theory.
Local Open Scope ring_scope.

Section Answers.
Variable C : numClosedFieldType.
Local Notation gate := (gate C nat_eqType).
Local Notation op := (op nat gate).
Local Notation circ := (circ op).
Local Notation vec n := (vec C [finType of 'I_n.+1]).

(** a manager has been constructed (src/EquivalenceCheckingManager.cpp:354-410) from the circuits [c1], [c2] of [n.+1] qubits under
    configuration [cfg] with an exact checker; it holds [c1'], [c2'] of [m.+1] qubits and settings [s] *)
Definition manager_for (n m : nat) (c1 c2 c1' c2' : circ) (cfg : config) (s : settings) : Prop :=
  exists (apply : pass -> circ -> circ) isEmpty isDynamic varfree nd,
  [/\ [/\ good_circuit n c1, good_circuit n c2 & ancillaries_agree c1 c2],
      [/\ isDynamic c1 = false, isDynamic c2 = false & forall p, List.In p (schedule (opts cfg) false) -> keeps_meaning n (apply p)],
      exact_configured cfg, construct (@on_qubits C) apply isEmpty isDynamic varfree nd cfg c1 c2 = PVal (c1', c2', s) &
      maxn (q_n c1) (q_n c2) = n.+1 /\ q_n c1' = m.+1].
(** environment [e] is that of the checkers for the prepared circuits [c1'], [c2'], computing exactly *)
Definition checkers_for (m : nat) (c1' c2' : circ) (MT : Type) (e : env stimulus (gen MT)) : Prop :=
  exists (q : package C [finType of 'I_m.+1] nat_eqType) (sch : schemes) (eps : C) (zero : nat) word unif t (clifford : stab -> vec m),
  [/\ [/\ exact_package q, good_schemes q (as_circuit m c1') (as_circuit m c2') sch & 0 < eps],
      clifford_states clifford, stimuli_of word unif c1' c2' t e &
      describes q sch zero (as_circuit m c1') (as_circuit m c2') (own_ancillaries m c1') (own_ancillaries m c2') eps (ket clifford) e].

(** [answers n c1 c2 v]: some undisturbed run for the circuits [c1], [c2] - sequential or parallel without the ZX checker - ends with
    verdict [v] *)
Inductive answers (n : nat) (c1 c2 : circ) : criterion -> Prop :=
| by_sequential_run : forall m c1' c2' cfg s MT (e : env stimulus (gen MT)) fuel pf ma ma',
    manager_for n m c1 c2 c1' c2' cfg s -> checkers_for m c1' c2' e -> checkers_constructible e (constructed cfg s) ->
    plain_sequential_run fuel e (constructed cfg s) ma -> SeqFlow.run fuel pf e ma = Returned ma' -> answers n c1 c2 (r_eq (m_res ma'))
| by_parallel_run : forall m c1' c2' cfg s MT (e : env stimulus (gen MT)) g pp x,
    manager_for n m c1 c2 c1' c2' cfg s -> checkers_for m c1' c2' e -> checkers_constructible e (constructed cfg s) ->
    plain_parallel_run e (constructed cfg s) g -> ~ zx_runs e (constructed cfg s) -> run_to_end e (constructed cfg s) g pp x ->
    answers n c1 c2 (r_eq (p_res x)).

(** every qubit is read out *)
Definition reads_all (c : circ) : Prop := forall q, (q < q_n c)%N -> values (q_out c) q.
(** the same qubits, the same ancillaries *)
Definition same_qubits (c1 c2 : circ) : Prop := q_n c1 = q_n c2 /\ forall q, q_anc c1 q = q_anc c2 q.
End Answers.
