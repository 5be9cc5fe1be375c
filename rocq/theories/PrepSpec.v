(** Specification vocabulary for the preparation of the circuits. No proofs. *)
From Coq Require Import List Bool Arith.
From Verif Require Import Perm PermSpec Prep.
Import ListNotations.

Section Spec.
Context {A : Type} (actsOn : A -> nat -> bool).
(** a circuit whose layout is a bijection between its physical qubits and the logical qubits [0, n), and whose outputs are distinct
    logical qubits of physical qubits in the layout *)
Definition wf_circ (c : circ A) : Prop :=
  is_map (q_lay c) /\ injective_map (q_lay c) /\ (forall v, values (q_lay c) v <-> v < q_n c) /\
  is_map (q_out c) /\ injective_map (q_out c) /\ (forall v, values (q_out c) v -> v < q_n c) /\ (forall p, keys (q_out c) p -> keys (q_lay c) p).
(** no operation acts on physical qubit [p] *)
Definition idle (c : circ A) (p : nat) : Prop := forall o, In o (q_ops c) -> actsOn o p = false.
(** logical qubit [l] on physical qubit [p] ends where it started, or is in no output *)
Definition undisturbed (c : circ A) (p l : nat) : Prop := maps (q_out c) p l \/ (~ keys (q_out c) p /\ ~ values (q_out c) l).
(** strictly increasing *)
Definition increasing (f : nat -> nat) : Prop := forall i j, i < j -> f i < f j.
(** [c'] is [c] without some idle undisturbed qubits; logical qubit [q] of [c'] is [f q] of [c]. Operations are untouched, the
    remaining physical qubits keep their places, outputs and flags *)
Definition shrunk (f : nat -> nat) (c c' : circ A) : Prop :=
  q_ops c' = q_ops c /\
  (forall p q, maps (q_lay c') p q -> maps (q_lay c) p (f q)) /\
  (forall p, keys (q_lay c') p -> qfind p (q_out c) = option_map f (qfind p (q_out c'))) /\
  (forall p l, maps (q_lay c) p l -> ~ keys (q_lay c') p -> idle c p /\ undisturbed c p l) /\
  (forall q, q < q_n c' -> f q < q_n c /\ q_anc c' q = q_anc c (f q) /\ q_gar c' q = q_gar c (f q)).
(** nothing more can be removed: an idle undisturbed qubit of the larger circuit also belongs to the smaller circuit and is in use there *)
Definition nothing_left (L Sm : circ A) : Prop :=
  forall p l, maps (q_lay L) p l -> idle L p -> undisturbed L p l ->
    exists pS, maps (q_lay Sm) pS l /\ ~ (idle Sm pS /\ undisturbed Sm pS l).

(** layout or output map [m'] is [m] with the pairs j -> j added, for b <= j < e, where j is not in use as a key already *)
Definition filled (b e : nat) (m m' : qmap) : Prop :=
  is_map m' /\ forall x, qfind x m' = match qfind x m with Some w => Some w | None => if (b <=? x) && (x <? e) then Some x else None end.
(** the larger circuit after the setup, where the other one has [b] qubits: operations, number of qubits and layout are kept, no output is
    added or changed and only outputs of garbage qubits from [b] on may be dropped; the qubits from [b] on are ancillary, and garbage iff
    they were or their physical qubit has no output *)
Definition restored (b : nat) (L L2 : circ A) : Prop :=
  q_ops L2 = q_ops L /\ q_n L2 = q_n L /\ q_lay L2 = q_lay L /\ is_map (q_out L2) /\
  (forall p v, maps (q_out L2) p v -> maps (q_out L) p v) /\
  (forall p v, maps (q_out L) p v -> v < b \/ q_gar L v = false -> maps (q_out L2) p v) /\
  (forall q, q < b -> q_anc L2 q = q_anc L q /\ q_gar L2 q = q_gar L q) /\
  (forall p q, maps (q_lay L) p q -> b <= q -> q_anc L2 q = true /\ q_gar L2 q = q_gar L q || match qfind p (q_out L) with Some _ => false | None => true end).
(** the smaller circuit after the setup for [n] qubits: operations and outputs are kept, the layout is filled up, the new qubits are
    ancillary and garbage *)
Definition padded (n : nat) (Sm S2 : circ A) : Prop :=
  q_ops S2 = q_ops Sm /\ q_n S2 = n /\ filled (q_n Sm) n (q_lay Sm) (q_lay S2) /\ q_out S2 = q_out Sm /\
  (forall q, q < q_n Sm -> q_anc S2 q = q_anc Sm q /\ q_gar S2 q = q_gar Sm q) /\ (forall q, q_n Sm <= q < n -> q_anc S2 q = true /\ q_gar S2 q = true).
(** no ancillary qubit of both circuits is acted on in both circuits *)
Definition handled (c1 c2 : circ A) : Prop :=
  forall q p1 p2, q < q_n c1 -> q_anc c1 q = true -> q_anc c2 q = true -> maps (q_lay c1) p1 q -> maps (q_lay c2) p2 q -> idle c1 p1 \/ idle c2 p2.
(** [k] of the circuit's qubits are not ancillary *)
Definition data_qubits (c : circ A) (k : nat) : Prop :=
  exists l, NoDup l /\ length l = k /\ forall q, In q l <-> q < q_n c /\ q_anc c q = false.
End Spec.
