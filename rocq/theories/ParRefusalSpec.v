(** Which checkers a parallel run starts, in terms of the configuration (property C82). Specification only. *)
From Coq Require Import List Bool NArith.
From Verif Require Import Criterion Config SeqFlow SeqSpec ParFlow.

Section ParRefusal.
Context {Stim Gen : Type}.
Notation env := (env Stim Gen).

(** the number of threads taken by the checkers other than the simulations *)
Definition other_threads (e : env) (c : config) : N :=
  (nb (runAlternatingChecker (exec c)) + nb (runConstructionChecker (exec c)) +
   nb (runZXChecker (exec c) && e_transformable e))%N.
(** a checker of this kind is configured and a thread is left for it: the simulations come last *)
Definition takes_part (e : env) (c : config) (k : kind) : Prop :=
  match k with
  | KAlt => runAlternatingChecker (exec c) = true
  | KCon => runConstructionChecker (exec c) = true
  | KZX => runZXChecker (exec c) = true /\ e_transformable e = true
  | KSim => runSimulationChecker (exec c) = true /\ (0 < maxSims (sim c))%N /\ (other_threads e c < nthreads (exec c))%N
  end.
End ParRefusal.
