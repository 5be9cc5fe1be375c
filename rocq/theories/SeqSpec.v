(** Specification vocabulary for the sequential / symbolic flows: what it means for stimuli to be drawn
    from the generator, and for a verdict to come from a checker. No proofs. *)
From Coq Require Import String List Bool NArith QArith.
From Verif Require Import Criterion Config SeqFlow.
Import ListNotations.
Local Open Scope list_scope.

Section Spec.
Context {Stim Gen : Type}.
Notation env := (env Stim Gen).

(** drawing the stimuli [l] one after the other, starting from generator state [g] *)
Inductive draws (e : env) : Gen -> list Stim -> Gen -> Prop :=
| draws_nil g : draws e g [] g
| draws_cons g s g' l g'' :
    e_gen e g = Some (s, g') -> draws e g' l g'' -> draws e g (s :: l) g''.

(** stimulus [s] can be drawn at some point after generator state [g] *)
Definition drawn_from (e : env) (g : Gen) (s : Stim) : Prop :=
  exists l g', draws e g (l ++ [s]) g'.

(** starting from [g] the generator returns at least [n] times *)
Definition gen_supplies (e : env) (g : Gen) (n : N) : Prop :=
  forall l g', draws e g l g' -> (N.of_nat (length l) < n)%N -> e_gen e g' <> None.

(** definitive verdicts *)
Definition definitive (c : criterion) : Prop :=
  c = Equivalent \/ c = EquivalentUpToGlobalPhase \/ c = EquivalentUpToPhase \/ c = NotEquivalent.

(** [q] is the verdict that an uninterrupted run of one of the enabled checkers gives; the alternating checker may refuse the circuits *)
Definition from_exact_checker (e : env) (c : config) (q : criterion) : Prop :=
  (runAlternatingChecker (exec c) = true /\ e_canHandle e = true /\ mcrit (e_alt e) = q) \/
  (runConstructionChecker (exec c) = true /\ mcrit (e_con e) = q).
Definition from_zx_checker (e : env) (c : config) (q : criterion) : Prop :=
  runZXChecker (exec c) = true /\ e_transformable e = true /\ zcrit (e_ancilla e) (e_zx e) = q.
Definition refuted_by_simulation (e : env) (c : config) (g : Gen) : Prop :=
  runSimulationChecker (exec c) = true /\ exists s, drawn_from e g s /\ e_sim e s = SNotEquivalent.

(** no constructor throws and the alternating checker may be run *)
Definition no_exceptions (e : env) (c : config) : Prop :=
  (runSimulationChecker (exec c) = true -> ctor_throws e c KSim = false) /\
  (runAlternatingChecker (exec c) = true -> ctor_throws e c KAlt = false /\ e_canHandle e = true) /\
  (runConstructionChecker (exec c) = true -> ctor_throws e c KCon = false) /\
  (runZXChecker (exec c) = true -> e_zx_perm_ok e = true).

(** the simulation on stimulus [s] does not distinguish the circuits *)
Definition nonref (e : env) (s : Stim) : Prop := e_sim e s <> SNotEquivalent.

(** the first simulation is started and cut short by the timeout *)
Definition first_simulation_interrupted (e : env) (c : config) (r : results Stim) (g : Gen) : Prop :=
  runSimulationChecker (exec c) = true /\ ctor_throws e c KSim = false /\
  r_performed r <> maxSims (sim c) /\ fired e c 0 = false /\
  interrupted e c 1 = true /\ e_gen e g <> None.


(** every simulation that may be run completes and does not distinguish the circuits *)
Definition sims_do_not_refute (e : env) (c : config) (g : Gen) : Prop :=
  runSimulationChecker (exec c) = true ->
    ctor_throws e c KSim = false /\ gen_supplies e g (maxSims (sim c)) /\
    (forall x, drawn_from e g x -> e_sim e x <> SNotEquivalent).


(** the manager (or result of a run) with the preprocessing time replaced by [p] *)
Definition with_pp (p : Q) (m : mgr Stim Gen) : mgr Stim Gen :=
  mkMgr (m_cfg m) (m_gen m) (m_done m) (m_checkers m)
    (mkResults (r_eq (m_res m)) (r_started (m_res m)) (r_performed (m_res m))
       (r_cexIn (m_res m)) (r_cexOut (m_res m)) p).
Definition omap_pp (p : Q) (o : outcome (mgr Stim Gen)) : outcome (mgr Stim Gen) :=
  match o with Returned m => Returned (with_pp p m) | Thrown => Thrown | Terminated => Terminated
             | Diverged => Diverged | AssertFailed => AssertFailed end.
End Spec.
