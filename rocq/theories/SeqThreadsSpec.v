(** Specification vocabulary for SeqThreads.v.  No proofs. *)
From Coq Require Import String List Bool NArith QArith Arith.
From Verif Require Import Criterion Config SeqFlow Trace SeqThreads.
Import ListNotations.
Local Open Scope list_scope.
Local Open Scope nat_scope.

(** the calling thread on its own: [fired t] says that [done] was set by somebody else before observation [t] (reads of [done] and runs of
    checkers are the observations), [cut t] that the run that is observation [t] gives up; [d]: the thread has set [done] itself *)
Fixpoint alone {A} (fired cut : nat -> bool) (t : nat) (d : bool) (p : prog A) : A :=
  match p with
  | PRead k => alone fired cut (S t) d (k (d || fired t))
  | PRun k => alone fired cut (S t) d (k (cut t))
  | PSet p => alone fired cut t true p
  | PNotify p | PEmplace p | PClear p | PJoin p => alone fired cut t d p
  | PLeave a => a
  end.

(** what SeqFlow.v says a flow leaves behind *)
Definition remains {Stim Gen} (o : outcome (mgr Stim Gen)) : outcome (left_over Stim Gen) :=
  match o with
  | Returned m => Returned (mkLeft (m_checkers m) (m_res m) (m_gen m))
  | Thrown => Thrown | Terminated => Terminated | Diverged => Diverged | AssertFailed => AssertFailed
  end.
Definition of_mgr {Stim Gen} (m : mgr Stim Gen) : left_over Stim Gen := mkLeft (m_checkers m) (m_res m) (m_gen m).
(** the same situation with another behaviour of the timeout thread *)
Definition timed {Stim Gen} (e : env Stim Gen) (fire : option nat) (notice : nat -> bool) : env Stim Gen :=
  mkEnv (e_empty e) (e_varfree e) (e_transformable e) (e_ancilla e) (e_canHandle e) (e_profile_ok e) (e_zx_perm_ok e) (e_ndebug e)
        (e_alt e) (e_con e) (e_sim e) (e_zx e) (e_gen e) (e_clear e) fire notice.

(** [acts] is a complete execution of the two threads: the function is left with [a] *)
Definition leaves {A} (acts : list sact) (w : shared A) (a : A) : Prop :=
  exists w', srun acts w = Some w' /\ w_ub w' = false /\ w_prog w' = PLeave a.
(** a state the threads reach *)
Definition reached {A} (w0 w : shared A) : Prop := exists acts, srun acts w0 = Some w.
(** the calling thread waits for the timeout thread *)
Definition joining {A} (w : shared A) : Prop := exists p, w_prog w = PJoin p.
(** without the deadline and spurious wake-ups nothing can happen any more *)
Definition only_time_helps {A} (w : shared A) : Prop :=
  (forall cut, sstep (SMain cut) w = None) /\ sstep STimer w = None /\ stopped w = false.

(** the question is settled: a verdict other than 'no information' and 'probably equivalent', or all simulations are done and nothing else is configured *)
Definition settled {Stim Gen} (c : config) (l : left_over Stim Gen) : Prop :=
  (r_eq (f_res l) <> NoInformation /\ r_eq (f_res l) <> ProbablyEquivalent) \/
  (onlySimulationCheckerConfigured c = true /\ simulationsFinished c (f_res l) = true).
(** in this execution the calling thread notifies the other one at some time, with [done] set *)
Definition announced {A} (acts : list sact) (w0 : shared A) : Prop :=
  exists acts1 cut acts2 w p, acts = acts1 ++ SMain cut :: acts2 /\ srun acts1 w0 = Some w /\ w_prog w = PNotify p /\ w_done w = true.
