(** The documented defaults. Definitions only. *)
From Coq Require Import String List Bool NArith QArith.
From Verif Require Import Criterion Config Setters SettersSpec Defaults.
Import ListNotations.

(** what the documentation of the options says about their defaults (docstrings in src/python/bindings.cpp:507-754, the values of which
    are repeated here; for options without a documented default that of include/Configuration.hpp is listed). [hw]: number of
    threads the operating system reports (0: unknown). "the maximum number of available threads reported by the OS" *)
Definition documented_nthreads (hw : N) : N := hw.
(** "16 or the maximum number of available threads minus 2, whichever is more" *)
Definition documented_max_sims (hw : N) : N := if (hw <=? 18)%N then 16 else hw - 2.
Definition documented (hw : N) (eps : Q) (c : config) : Prop :=
  (parallel (exec c) = true /\ timeout (exec c) = 0%Q /\ numericalTolerance (exec c) = eps) /\
  (runConstructionChecker (exec c) = false /\ runSimulationChecker (exec c) = true /\
   runAlternatingChecker (exec c) = true /\ runZXChecker (exec c) = true) /\
  (fuseSingleQubitGates (opts c) = true /\ reconstructSWAPs (opts c) = true /\ removeDiagonalGatesBeforeMeasure (opts c) = false /\
   transformDynamicCircuit (opts c) = false /\ reorderOperations (opts c) = true /\ backpropagateOutputPermutation (opts c) = false /\
   elidePermutations (opts c) = true) /\
  (constructionScheme (app c) = Proportional /\ simulationScheme (app c) = Proportional /\ alternatingScheme (app c) = Proportional /\
   profile (app c) = EmptyString) /\
  (Qeq (traceThreshold (func c)) (inject_Z 10 ^ (-8)) /\ checkPartialEquivalence (func c) = false) /\
  (Qeq (fidelityThreshold (sim c)) (inject_Z 10 ^ (-8)) /\ maxSims (sim c) = documented_max_sims hw /\
   stateTyp (sim c) = ComputationalBasis /\ seed (sim c) = 0%N /\ storeCEXinput (sim c) = false /\ storeCEXoutput (sim c) = false) /\
  (Qeq (parameterizedTol (par c)) (inject_Z 10 ^ (-12)) /\ nAdditionalInstantiations (par c) = 0%N).

(** the settings a method is about (its documented effects, SettersSpec.v) *)
Definition concerns {F} (p : method) (f : field) : Prop := In f (map fst (effects (no_argument (F := F) 2 0 p))).
(** the methods that set the profile of the gate-cost scheme *)
Definition sets_profile (p : method) : bool :=
  match p with
  | set_gate_cost_profile | set_construction_gate_cost_profile | set_simulation_gate_cost_profile | set_alternating_gate_cost_profile => true
  | _ => false
  end.
(** the settings with a method of their own that has a default: all but the profile and the cost function, the optimisations and the options for
    parameterised circuits *)
Definition restorable (f : field) : bool :=
  match f with FProfile | FCostFunction | FOptimizations | FParameterized => false | _ => true end.
