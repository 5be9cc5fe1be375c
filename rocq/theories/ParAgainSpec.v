(** Specification vocabulary for property C84: a manager that runs several parallel checks without reset(). No proofs in this file. *)
From Coq Require Import String List Bool NArith QArith.
From Verif Require Import Criterion Config SeqFlow SeqSpec ParFlow ParSpec ParAgain.
Import ListNotations.
Local Open Scope list_scope.

Section Spec.
Context {Stim Gen : Type}.
Notation env := (env Stim Gen).
Notation pst := (pst Stim Gen).

(** [s] is reached, by some interleaving, in a run that starts with checkers [l], results [r] and generator [g] *)
Definition reached_again (e : env) (c : config) (l : list (left_over Stim)) (r : results Stim) (g : Gen) (s : pst) : Prop :=
  exists acts, arun e acts (par_again e c l r g) = Some s.
(** the next run of the manager that has been left in state [s0], with the circuits and settings described by [e] and [c] *)
Definition next_run (e : env) (c : config) (s0 s : pst) : Prop := reached_again e c (left_by s0) (p_res s0) (p_gen s0) s.

(** run() has returned or thrown *)
Definition ended (s : pst) : Prop := p_main s = MReturned \/ p_main s = MThrown.
(** states of a manager on which run() has been called any number of times, always in the parallel flow and with nothing else in between *)
Inductive runs (e : env) (c : config) (g : Gen) (pp : Q) : pst -> Prop :=
| runs_first s : reachable e c g pp s -> runs e c g pp s
| runs_next s0 s : runs e c g pp s0 -> ended s0 -> choose_flow e (p_cfg s0) = FParallel -> next_run e (p_cfg s0) s0 s -> runs e c g pp s.

(** some state of the generator yields the stimulus [y] *)
Definition drawable (e : env) (y : Stim) : Prop := exists g g', e_gen e g = Some (y, g').
(** a checker of kind [k], run to its end in this situation, may give the verdict [q]; [D]: the stimuli that a simulation may get *)
Definition computes (e : env) (D : Stim -> Prop) (k : kind) (q : criterion) : Prop :=
  match k with
  | KAlt => e_canHandle e = true /\ q = mcrit (e_alt e)
  | KCon => q = mcrit (e_con e)
  | KZX => q = zcrit (e_ancilla e) (e_zx e)
  | KSim => exists y, D y /\ q = scrit (e_sim e y)
  end.
(** a checker of kind [k] is switched on in the configuration and can be used for these circuits (ZX: the circuits are supported;
    simulation: at least one is asked for) *)
Definition enabled (e : env) (c : config) (k : kind) : Prop :=
  match k with
  | KAlt => runAlternatingChecker (exec c) = true
  | KCon => runConstructionChecker (exec c) = true
  | KZX => runZXChecker (exec c) && e_transformable e = true
  | KSim => runSimulationChecker (exec c) && N.ltb 0 (maxSims (sim c)) = true
  end.
(** no thread can make another step *)
Definition again_stuck (e : env) (s : pst) : Prop := forall a, astep e a s = None.
End Spec.
