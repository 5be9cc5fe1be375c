(** Specification vocabulary for property C86: what the shipped profiles say. No proofs in this file. *)
From Coq Require Import String List Bool Arith ZArith NArith.
From Verif Require Import PyConfig PyProfile ProfileGen ProfileGenSpec Schemes ProfileData.
Import ListNotations.
Local Open Scope string_scope.

(** how the C++ side calls the gates (mqt-core's opTypeFromString): every name that occurs in a profile is known, and different names are
    different gates *)
Definition knows_names (tyof : string -> option optype) : Prop :=
  (forall g, In g profile_gates -> tyof g <> None) /\ (forall g g', In g profile_gates -> In g' profile_gates -> tyof g = tyof g' -> g = g').
(** the look-up table of the gate-cost scheme made from the profile that the package holds for an optimisation level and an ancilla mode *)
Definition shipped_table (tyof : string -> option optype) (level : Z) (m : ancilla_mode) (t : table) : Prop :=
  exists content, package_profile (generate_profile_name level m) = Some content /\ read_profile tyof content = Some t.

(** the gates with a cost: all of the plain ones without controls, some with one control, and X, the phase gate and the phase gates of a fixed
    angle with up to 127 controls *)
Definition has_cost (g : string) (nc : nat) : Prop :=
  match nc with
  | O => In g profile_gates
  | S O => In g ["x"; "y"; "z"; "h"; "sx"; "p"; "rx"; "ry"; "rz"; "u"; "swap"; "s"; "sdg"; "t"; "tdg"]
  | _ => In g ["x"; "p"; "z"; "s"; "sdg"; "t"; "tdg"] /\ (nc <= 127)%nat
  end.
(** the scheme charges [c] for the gate [g] with [n] controls *)
Definition shipped_cost (tyof : string -> option optype) (level : Z) (m : ancilla_mode) (g : string) (n c : N) : Prop :=
  In g profile_gates /\ exists t ty, shipped_table tyof level m t /\ tyof g = Some ty /\ lookup t (ty, n) = Some c.
