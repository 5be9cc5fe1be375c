(** Specification vocabulary for the extrapolation of profiles. No proofs. *)
From Coq Require Import List.
From Verif Require Import PyProfile.

(** every key occurs once, as in a Python dictionary *)
Definition keys_nodup (d : dict) : Prop := NoDup (map fst d).
