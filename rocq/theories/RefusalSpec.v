(** Which configurations make checkers refuse to work (property C60). Specification only, in terms of the
    configuration options a user sets. *)
From Coq Require Import String List Bool NArith.
From Verif Require Import Criterion Config SeqFlow SeqSpec VerdictSpec.

Section Refusal.
Context {Stim Gen : Type}.
Notation env := (env Stim Gen).

(** the gate-cost scheme is asked for with a profile file that cannot be read *)
Definition unreadable_profile (e : env) (c : config) (s : scheme) : Prop :=
  s = GateCost /\ profile (app c) <> EmptyString /\ e_profile_ok e = false.
(** the constructor of this checker throws: the lookahead scheme is for the alternating checker only *)
Definition constructor_refuses (e : env) (c : config) (k : kind) : Prop :=
  match k with
  | KSim => simulationScheme (app c) = Lookahead \/ unreadable_profile e c (simulationScheme (app c))
  | KCon => constructionScheme (app c) = Lookahead \/ unreadable_profile e c (constructionScheme (app c))
  | KAlt => unreadable_profile e c (alternatingScheme (app c))
  | KZX => False
  end.
(** ... or its run: the alternating checker cannot handle the circuits *)
Definition refuses (e : env) (c : config) (k : kind) : Prop :=
  constructor_refuses e c k \/ (k = KAlt /\ e_canHandle e = false).
(** a sequential run without interruptions meets a checker that refuses; [l]: the stimuli *)
Definition meets_refusal (e : env) (c : config) (l : list Stim) : Prop :=
  (runSimulationChecker (exec c) = true /\ refuses e c KSim) \/
  ((runSimulationChecker (exec c) = true -> forall n x, ~ first_refuting e l n x) /\
   ((runAlternatingChecker (exec c) = true /\ refuses e c KAlt) \/
    (runAlternatingChecker (exec c) = false /\ runConstructionChecker (exec c) = true /\ refuses e c KCon))).
End Refusal.
