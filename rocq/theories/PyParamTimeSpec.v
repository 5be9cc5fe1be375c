(** Specification vocabulary for the timeout of the flow for parameterised circuits. No proofs. *)
From Coq Require Import List Bool QArith.
From Verif Require Import Criterion PyParam PyParamSpec.
Import ListNotations.
Open Scope Q_scope.

(** check time and preprocessing time of a check *)
Definition duration (r : presult) : Q := r_check r + r_prep r.
(** the time of the ZX check, of instantiating the parameters (zero and [k] further rounds) and of the checks of those rounds *)
Fixpoint counted (e : penv) (k : nat) : Q :=
  match k with O => duration (zx e) + zero_time e | S k' => counted e k' + (phase_time e k' + duration (phase e k')) end.
(** time of the last instantiation by phases, or of the zero instantiation if there is none *)
Definition last_instantiation (e : penv) (n : nat) : Q := match n with O => zero_time e | S n' => phase_time e n' end.
(** times are not negative *)
Definition sensible_times (e : penv) : Prop :=
  0 <= duration (zx e) /\ 0 <= zero_time e /\ (forall i, 0 <= phase_time e i) /\ (forall i, 0 <= duration (phase e i)).
(** the time is never used up exactly (a remaining time of 0 means 'no timeout') *)
Definition never_exactly (e : penv) (T : Q) (n : nat) : Prop :=
  ~ duration (zx e) == T /\ (forall k, (k <= n)%nat -> ~ counted e k == T) /\ (forall k, (k < n)%nat -> ~ counted e k + phase_time e k == T).

