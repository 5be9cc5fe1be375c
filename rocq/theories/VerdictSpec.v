(** Decision table of the sequential flow when nothing interrupts it (property C58).
    Specification only: written from the documentation of the checkers, independent of SeqFlow's loops. *)
From Coq Require Import List Bool NArith QArith.
From Verif Require Import Criterion Config SeqFlow SeqSpec.
Import ListNotations.

Section Verdict.
Context {Stim Gen : Type}.
Notation env := (env Stim Gen).

(** the first stimulus of [l] that distinguishes the circuits, with its position counted from 1 *)
Inductive first_refuting (e : env) (l : list Stim) (n : N) (x : Stim) : Prop :=
| first_at l1 l2 : l = l1 ++ x :: l2 -> Forall (nonref e) l1 -> e_sim e x = SNotEquivalent ->
    n = (N.of_nat (length l1) + 1)%N -> first_refuting e l n x.

(** the verdict of the checkers after the simulations, if no simulation has distinguished the circuits;
    [ran]: at least one simulation has been run *)
Definition table (e : env) (c : config) (ran : bool) : criterion :=
  let soFar := if ran then ProbablyEquivalent else NoInformation in
  if runAlternatingChecker (exec c) then
    match e_alt e with
    | MEquivalent => Equivalent | MGlobalPhase => EquivalentUpToGlobalPhase | MNotEquivalent => NotEquivalent end
  else if runConstructionChecker (exec c) then
    match e_con e with
    | MEquivalent => Equivalent | MGlobalPhase => EquivalentUpToGlobalPhase | MNotEquivalent => NotEquivalent end
  else if runZXChecker (exec c) && e_transformable e then
    match e_zx e with
    | ZEquivalent => Equivalent
    | ZGlobalPhase => EquivalentUpToGlobalPhase
    | ZFail => if e_ancilla e then soFar          (* the ZX-checker cannot tell *)
               else if ran then NoInformation     (* the two heuristics contradict each other *)
               else ProbablyNotEquivalent
    end
  else soFar.

(** nothing interrupts the run *)
Definition never_fires (e : env) (c : config) : Prop := forall t, fired e c t = false.
End Verdict.
