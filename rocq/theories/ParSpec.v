(** Specification vocabulary for the parallel flow.  No proofs. *)
From Coq Require Import String List Bool NArith QArith.
From Verif Require Import Criterion Config SeqFlow SeqSpec ParFlow.
Import ListNotations.
Local Open Scope list_scope.

Section Spec.
Context {Stim Gen : Type}.
Notation env := (env Stim Gen).

(** [s] is reached from a fresh manager by some interleaving *)
Definition reachable (e : env) (c : config) (g : Gen) (pp : Q) (s : pst Stim Gen) : Prop :=
  exists acts, prun e acts (par_init e c g pp) = Some s.

(** at least as many threads as non-simulation checkers that will be launched *)
Definition enough_threads (e : env) (c : config) : Prop :=
  (nb (runAlternatingChecker (exec c)) + nb (runConstructionChecker (exec c)) +
   nb (runZXChecker (exec c) && e_transformable e) <= nthreads (exec c))%N.

(** max_sims is far from the limit of std::size_t *)
Definition sane_sims (c : config) : Prop := (maxSims (sim c) + 3 < 2 ^ 64)%N.

(** the simulation runs consumed by the main thread *)
Definition is_sim_entry (x : kind * criterion * option Stim) : bool :=
  match x with (KSim, _, _) => true | _ => false end.
Definition consumed_sims (s : pst Stim Gen) : list (kind * criterion * option Stim) :=
  filter is_sim_entry (p_log s).

(** run() has returned with the results [p_res s] *)
Definition par_returned (e : env) (c : config) (g : Gen) (pp : Q) (s : pst Stim Gen) : Prop :=
  reachable e c g pp s /\ p_main s = MReturned.

(** the situation in which the main thread waits for a result that never comes: only simulations and ZX
    are configured, there is no timeout, ZX is inconclusive and no simulation refutes *)
Definition hang_condition (e : env) (c : config) (g : Gen) : Prop :=
  runAlternatingChecker (exec c) = false /\ runConstructionChecker (exec c) = false /\
  runSimulationChecker (exec c) = true /\ (0 < maxSims (sim c))%N /\
  runZXChecker (exec c) = true /\ e_transformable e = true /\
  zcrit (e_ancilla e) (e_zx e) = NoInformation /\ hasTimeout c = false /\
  exists l g', draws e g l g' /\ N.of_nat (length l) = maxSims (sim c) /\ Forall (nonref e) l.

(** no thread can move any more *)
Definition stuck (e : env) (s : pst Stim Gen) : Prop := forall a, pstep e a s = None.
Definition finished (s : pst Stim Gen) : Prop :=
  match p_main s with
  | MReturned | MThrown | MNullDeref | MOutOfBounds | MTerminated => True | _ => False end.
(** the main thread waits for a result that will never come *)
Definition waits_forever (e : env) (s : pst Stim Gen) : Prop := stuck e s /\ ~ finished s.
(** the main thread has left the loop that consumes results: it signals, waits for the threads or has returned *)
Definition decided (m : mpc) : bool := match m with MSignal _ | MEnd | MReturned | MNullDeref => true | _ => false end.
End Spec.
