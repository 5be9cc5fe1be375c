(** Specification vocabulary for the ZX checker. No proofs. *)
From Coq Require Import List Bool Arith Relations.
From Verif Require Import Criterion Perm PermSpec ZX.
Import ListNotations.

(** wire [i] of the reduced miter is a plain wire whose two ends stand for the same logical qubit *)
Definition plain_wire (p1 p2 : qmap) (M : miter) (i : nat) : Prop :=
  exists q1 q2 l, z_wire M i = (ESimple, Some q1, Some q2) /\ maps p1 q1 l /\ maps p2 q2 l.
(** the reduced miter consists of [z_nqubits] edges, and all wires except those garbage in both circuits are plain *)
Definition all_plain (g1 g2 : nat -> bool) (p1 p2 : qmap) (M : miter) : Prop :=
  z_nedges M = z_nqubits M /\ forall i, i < z_nqubits M -> (g1 i = true /\ g2 i = true) \/ plain_wire p1 p2 M i.
(** the look-ups of the verdict loop succeed: every input vertex and its neighbour carry a qubit that the permutations know *)
Definition lookups_ok (p1 p2 : qmap) (M : miter) : Prop :=
  forall i, i < z_nqubits M -> exists t q1 q2, z_wire M i = (t, Some q1, Some q2) /\ keys p1 q1 /\ keys p2 q2.

Section Reduce.
Context {D : Type}.
(** some rule of the family applies to some candidate that its iteration visits *)
Inductive visited (F : family D) (d : D) : f_item D F -> Prop :=
| vis_first i : f_next D F d None = Some i -> visited F d i
| vis_next i j : visited F d i -> f_next D F d (Some i) = Some j -> visited F d j.
Definition exhausted (d : D) (F : family D) : Prop := forall i, visited F d i -> f_check D F d i = false.
Definition families (R : rules D) : list (family D) :=
  [r_id D R; r_spider D R; r_localComp D R; r_pivotPauli D R; r_pivot D R; r_pivotGadget D R; r_gadget D R].
(** one rewrite: a rule whose check succeeded *)
Definition rewrite1 (R : rules D) (d d' : D) : Prop :=
  exists F i, In F (families R) /\ f_check D F d i = true /\ d' = f_apply D F d i.
(** one step of the reduction: a rewrite or one of the three global passes *)
Inductive rstep (R : rules D) (d : D) : D -> Prop :=
| rs_rule d' : rewrite1 R d d' -> rstep R d d'
| rs_graphlike : rstep R d (r_toGraphlike D R d)
| rs_remove : rstep R d (r_removeDisconnected D R d)
| rs_approx : rstep R d (r_approximate D R d).
Definition rsteps (R : rules D) : D -> D -> Prop := clos_refl_trans D (rstep R).
(** the rewrites decrease a measure that the global passes do not increase, and every iteration over candidates is finite: a rank
    decreases from candidate to candidate, rewriting at a candidate does not increase it, and it is bounded by [B] *)
Definition rewriting_terminates (R : rules D) (mu : D -> nat) (B : nat) (d0 : D) : Prop :=
  (forall d d', rewrite1 R d d' -> mu d' < mu d) /\
  (forall F, In F (families R) -> exists rank : D -> option (f_item D F) -> nat,
     (forall d it j, f_next D F d it = Some j -> rank d (Some j) < rank d it) /\
     (forall d i, rank (f_apply D F d i) (Some i) <= rank d (Some i)) /\
     (forall d it, mu d <= mu d0 -> rank d it <= B)) /\
  (forall d, mu (r_toGraphlike D R d) <= mu d) /\ (forall d, mu (r_removeDisconnected D R d) <= mu d) /\
  (forall d, mu (r_approximate D R d) <= mu d).
End Reduce.
