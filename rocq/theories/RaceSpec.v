(** Specification vocabulary for data races.  No proofs. *)
From Coq Require Import String List Bool NArith QArith Arith.
From Verif Require Import Criterion Config SeqFlow ParFlow Trace ParTrace.
Import ListNotations.
Local Open Scope list_scope.

(** [tr] lists the accesses of some execution of the parallel flow on a fresh manager that has reached the state [s] *)
Definition par_trace {Stim Gen} (e : env Stim Gen) (c : config) (g : Gen) (pp : Q) (tr : trace loc) (s : pst Stim Gen) : Prop :=
  exists acts l T, trun e acts (t_init e c g pp) = Some (l, T) /\ tr = init_events e c ++ l /\ s = t_st T.

(** position [d] is where the main thread sets [done] to true, the first step of setAndSignalDone; the first write of [done], at the very
    beginning of run(), sets it to false *)
Definition sets_done (tr : trace loc) (d : nat) : Prop :=
  (0 < d)%nat /\ nth_error tr d = Some (main_thread, Acc Wr LDone).
(** before position [j], nobody has waited for thread [t] *)
Definition not_waited_for (tr : trace loc) (t j : nat) : Prop :=
  forall q u, (q < j)%nat -> nth_error tr q <> Some (u, Join t).
(** the three kinds of locations that setAndSignalDone touches *)
Definition cancellation_loc (l : loc) : Prop :=
  l = LDone \/ (exists k, l = LSlot k) \/ (exists k, l = LFlag k).
