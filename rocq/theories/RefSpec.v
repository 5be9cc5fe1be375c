(** Vocabulary for statements about reference counting (RefPackage.v). *)
From Coq Require Import NArith Bool List Arith.
From Verif Require Import RefPackage.
Import ListNotations.

(** no fault occurred *)
Definition safe {A} (r : res A) : Prop := match r with Fault _ => False | _ => True end.
(** the references are exactly one for every entry of the list (the terminal node is never counted) *)
Definition references (w : world) (l : list node) : Prop :=
  forall n, n <> 0%N -> cnt w n = N.of_nat (count_occ N.eq_dec l n).
(** a package nobody holds references in *)
Definition unreferenced (w : world) : Prop := references w [].
(** all these diagrams can still be read *)
Definition intact (w : world) (l : list node) : Prop := forall n, In n l -> n = 0%N \/ live w n = true.
(** the collector never runs; the check is never cancelled *)
Definition never_collects (o : oracle) : Prop := forall k, o_gc o k = false.
Definition never_cancelled (o : oracle) : Prop := forall k, o_done o k = false.
(** a new package *)
Definition new_package : world := World (fun _ => 0%N) (fun _ => false) 0.
