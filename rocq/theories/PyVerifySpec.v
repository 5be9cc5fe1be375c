(** Specification vocabulary for histories of calls. No proofs. *)
From Coq Require Import String List Bool ZArith.
From Verif Require Import PyConfig PyVerify.
Import ListNotations.
Local Open Scope string_scope.

(** the options verify_compilation sets *)
Definition flow_options : list string := ["construction_scheme"; "simulation_scheme"; "alternating_scheme"; "profile"].
(** a call that does not concern option [k] of the caller's object *)
Definition leaves_alone {V C} (k : string) (q : request V C) : Prop :=
  q_shared q = false \/ (~ In k (map fst (q_kwargs q)) /\ (q_flow q = None \/ ~ In k flow_options)).

