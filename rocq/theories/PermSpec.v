(** Specification vocabulary for permutations. No proofs. *)
From Coq Require Import List Bool Arith Sorting.Sorted.
From Verif Require Import Perm.
Import ListNotations.

(** a std::map: keys strictly ascending *)
Definition is_map (p : qmap) : Prop := StronglySorted lt (map fst p).
(** entry k -> v *)
Definition maps (p : qmap) (k v : nat) : Prop := qfind k p = Some v.
Definition keys (p : qmap) (k : nat) : Prop := exists v, maps p k v.
Definition values (p : qmap) (v : nat) : Prop := exists k, maps p k v.
(** no two keys have the same value *)
Definition injective_map (p : qmap) : Prop := forall k k' v, maps p k v -> maps p k' v -> k = k'.
(** a partial permutation with values below n *)
Definition partial_perm (p : qmap) (n : nat) : Prop := is_map p /\ injective_map p /\ forall v, values p v -> v < n.
(** a bijection of [0, n) *)
Definition bijection_below (p : qmap) (n : nat) : Prop :=
  is_map p /\ injective_map p /\ (forall k, keys p k <-> k < n) /\ (forall v, values p v <-> v < n).
(** q extends p *)
Definition extends (p q : qmap) : Prop := forall k v, maps p k v -> maps q k v.
