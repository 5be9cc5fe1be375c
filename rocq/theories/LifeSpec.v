(** Specification vocabulary for property C85: the whole life of a manager, through changes of the settings, reset() and runs in any flow.
    Sources: include/EquivalenceCheckingManager.hpp:91-249 (run, reset, setters), src/EquivalenceCheckingManager.cpp:293-352, 412-895.
    No proofs in this file.

    A life ends when the process does (std::terminate, failed assertion, dereferenced null checker) or when run() does not come back; a call that
    returns or throws continues it. Simplification: the flags of the checkers that a sequential or symbolic run leaves behind are arbitrary (the
    timeout thread may or may not have told them to stop), so some lives here cannot happen. *)
From Coq Require Import String List Bool NArith QArith.
From Verif Require Import Criterion Config SeqFlow SeqSpec SeqThrow ParFlow ParSpec ParAgain ParAgainSpec.
Import ListNotations.
Local Open Scope list_scope.

Section Life.
Context {Stim Gen : Type}.
Notation env := (env Stim Gen).
Notation mgr := (mgr Stim Gen).

(** what run() and the setters find and leave in a manager, hpp:252-266: configuration, checkers, results, generator of stimuli.
    ([done] is set to false at the beginning of run(), cpp:294.) *)
Record manager := mkManager {
  lf_cfg : config;
  lf_chk : list (left_over Stim);
  lf_res : results Stim;
  lf_gen : Gen }.

(** circuits and settings as the checkers see them, and the configuration *)
Definition settings : Type := env * config.

(** the checkers in the manager's vector; a parallel run that throws may leave null pointers among them *)
Definition present (l : list (left_over Stim)) : list (checker Stim) := flat_map (fun o => match fst o with Some k => [k] | None => [] end) l.
Definition no_null (l : list (left_over Stim)) : Prop := Forall (fun o => fst o <> None) l.

(** [life used m]: a program can bring a manager into state [m]; [used] are the settings of the runs since the last reset (or the construction),
    most recent first *)
Inductive life : list settings -> manager -> Prop :=
| life_new c g pp :
    life [] (mkManager c [] (mkResults NoInformation 0 0 None None pp) g)
| life_configure used m c :
    life used m -> life used (mkManager c (lf_chk m) (lf_res m) (lf_gen m))
| life_reset used m (e : env) :
    life used m -> life [] (mkManager (lf_cfg m) [] empty_results (e_clear e (lf_gen m)))
(** nothing to execute, cpp:314-317, and empty circuits, cpp:319-323 *)
| life_run_nothing used m (e : env) :
    life used m -> choose_flow e (lf_cfg m) = FNothing ->
    life ((e, lf_cfg m) :: used) (mkManager (lf_cfg m) (lf_chk m) (set_eq NoInformation (lf_res m)) (lf_gen m))
| life_run_trivial used m (e : env) :
    life used m -> choose_flow e (lf_cfg m) = FTrivial ->
    life ((e, lf_cfg m) :: used) (mkManager (lf_cfg m) (lf_chk m) (set_eq Equivalent (lf_res m)) (lf_gen m))
(** the sequential and the symbolic flow return; null pointers are skipped by setAndSignalDone (hpp:301-305), but at the end every element of the
    vector is dereferenced (cpp:337-341), unless the vector has been emptied (cpp:572, 884) *)
| life_run used m (e : env) fuel pf d m' l' :
    life used m -> choose_flow e (lf_cfg m) = FSequential \/ choose_flow e (lf_cfg m) = FSymbolic ->
    run fuel pf e (mkMgr (lf_cfg m) (lf_gen m) d (present (lf_chk m)) (lf_res m)) = Returned m' ->
    no_null (lf_chk m) \/ m_checkers m' = [] ->
    map fst l' = map Some (m_checkers m') ->
    life ((e, lf_cfg m) :: used) (mkManager (m_cfg m') l' (m_res m') (m_gen m'))
(** the sequential flow throws: the new checkers are behind the old elements *)
| life_run_throws used m (e : env) fuel d s l' :
    life used m ->
    run_left fuel e (mkMgr (lf_cfg m) (lf_gen m) d (present (lf_chk m)) (lf_res m)) = Some s ->
    map fst l' = map fst (lf_chk m) ++ map Some (skipn (length (present (lf_chk m))) (s_chk s)) ->
    life ((e, lf_cfg m) :: used) (mkManager (lf_cfg m) l' (s_res s) (s_gen s))
(** the parallel flow returns or throws *)
| life_run_parallel used m e s :
    life used m -> choose_flow e (lf_cfg m) = FParallel ->
    reached_again e (lf_cfg m) (lf_chk m) (lf_res m) (lf_gen m) s -> ended s ->
    life ((e, lf_cfg m) :: used) (mkManager (p_cfg s) (left_by s) (p_res s) (p_gen s)).

(** under these settings checkers of kind [k] are used: switched on (and, for ZX, possible); symbolic circuits are always given to the ZX checker *)
Definition uses (x : settings) (k : kind) : Prop :=
  match k with
  | KAlt => runAlternatingChecker (exec (snd x)) = true
  | KCon => runConstructionChecker (exec (snd x)) = true
  | KSim => runSimulationChecker (exec (snd x)) = true
  | KZX => (runZXChecker (exec (snd x)) = true \/ e_varfree (fst x) = false) /\ e_transformable (fst x) = true
  end.
(** the generator of stimuli can yield [y] in some run of [used] *)
Definition drawable_in (used : list settings) (y : Stim) : Prop := exists z, In z used /\ drawable (fst z) y.
(** a verdict that a run under the settings [x] can compute with checkers of kind [k]; of simulations only refutations count. A simulation can be
    that of an earlier run: its stimulus was drawn in one of [used] *)
Definition finds (used : list settings) (x : settings) (k : kind) (q : criterion) : Prop :=
  computes (fst x) (drawable_in used) k q /\ (k = KSim -> q = NotEquivalent).
End Life.
Arguments manager : clear implicits.
Arguments settings : clear implicits.
