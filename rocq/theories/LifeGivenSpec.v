(** Specification vocabulary for the end-to-end part of C85 for the circuits that the user gives: preparation of the circuits, stimuli from the
    state generator, and any sequence of calls on the manager. No proofs.
    Sources: src/EquivalenceCheckingManager.cpp:39-222 (preparation, Prep.v), src/checker/dd/simulation/StateGenerator.cpp:29-172 (StateGen.v),
    and as in LifeSpec.v and DDFlow.v. *)
From Coq Require Import BinNums NArith.
From mathcomp Require Import all_ssreflect all_fingroup all_algebra.
From Verif Require Import Criterion Config SeqFlow SeqSpec StateGen Perm Prep ParFlow Schemes DDCheck DDSpec Qubits DDSem DDFlow ZX ZXSem EndToEnd PrepSem StimSpec StimSem LifeSpec LifeSem.
Set Implicit Arguments.
Unset Strict Implicit.
Unset Printing Implicit Defensive.
Import GRing.Theory Num.Theory.
Local Open Scope ring_scope.

Section Given.
Variable C : numClosedFieldType.
Local Notation gate := (gate C nat_eqType).
Local Notation op := (op nat gate).
Local Notation circ := (circ op).
Local Notation vec m := (vec C [finType of 'I_m.+1]).

(** the run with settings [x] checks the prepared circuits [c1'], [c2'] on [m.+1] qubits with decision diagrams: the verdicts are those of
    uninterrupted checkers, for some package, application schemes and fidelity threshold; the stimuli are those of the state generator, for
    the type of stimuli that is set in this run. [word], [unif]: random words and choices; [clifford]: states of the random Clifford circuits.
    The ZX checker takes no part *)
Definition checks_prepared (zero : nat) (m : nat) (c1' c2' : circ) (MT : Type) (word : MT -> N * MT) (unif : N -> MT -> N * MT)
    (clifford : stab -> vec m) (x : LifeSpec.settings stimulus (gen MT)) : Prop :=
  let p1 := as_circuit m c1' in let p2 := as_circuit m c2' in let A1 := own_ancillaries m c1' in let A2 := own_ancillaries m c2' in
  [/\ e_empty x.1 = false, without_zx x, ancillaries_fit x.2 p1 p2 A1 A2, exists t, stimuli_of word unif c1' c2' t x.1 &
      exists (q : package C [finType of 'I_m.+1] nat_eqType) (s : schemes) (eps : C),
        [/\ exact_package q, good_schemes q p1 p2 s, 0 < eps & describes q s zero p1 p2 A1 A2 eps (ket clifford) x.1]].
(** the same for a manager whose constructor has prepared the circuits; the ZX checker may take part (see [zx_fine]) *)
Definition checks_constructed (zero : nat) (m : nat) (c1' c2' : circ) (MT : Type) (word : MT -> N * MT) (unif : N -> MT -> N * MT)
    (clifford : stab -> vec m) (x : LifeSpec.settings stimulus (gen MT)) : Prop :=
  let p1 := as_circuit m c1' in let p2 := as_circuit m c2' in let A1 := own_ancillaries m c1' in let A2 := own_ancillaries m c2' in
  [/\ e_empty x.1 = false, exists t, stimuli_of word unif c1' c2' t x.1 &
      exists (q : package C [finType of 'I_m.+1] nat_eqType) (s : schemes) (eps : C),
        [/\ exact_package q, good_schemes q p1 p2 s, 0 < eps & describes q s zero p1 p2 A1 A2 eps (ket clifford) x.1]].
(** if the ZX checker can take part in one of the runs [used]: every qubit has an output, none is garbage in both circuits, the ZX verdicts are
    the checker's answers for diagrams that stand for D2 D1^+, and the circuits' operations are supported in all runs or in none *)
Definition zx_fine (m : nat) (c1' c2' : circ) (Stim Gen : Type) (used : list (LifeSpec.settings Stim Gen)) : Prop :=
  let p1 := as_circuit m c1' in let p2 := as_circuit m c2' in
  (exists y, List.In y used /\ uses y KZX) ->
  [/\ full_maps p1, full_maps p2, forall i : 'I_m.+1, ~~ (q_gar c1' i && q_gar c2' i) &
      exists tr, forall x, List.In x used -> zx_describes (q_gar c1') (q_gar c2') p1 p2 x.1 /\ e_transformable x.1 = tr].
End Given.
