(** Reference counting in the decision-diagram package, seen from its clients: what mqt-core's package promises about diagrams that are
    created, referenced, released and reclaimed. Definitions only.
    A diagram is represented by its root node, and every node ever made has its own identity (a recycled address counts as a new node), so
    that a use of a node that was reclaimed is always visible. The terminal node [0] is neither counted nor reclaimed.
    Simplified: counts are kept for roots only (mqt-core's incRef/decRef pass them on to the successors); the vector and the matrix tables
    share one space of nodes. *)
From Coq Require Import NArith Bool List Arith.
Import ListNotations.

Definition node := N.
(** [cnt]: the reference counts; [live]: made and not reclaimed since; [clock]: number of calls so far (indexes the environment's answers) *)
Record world := World { cnt : node -> N; live : node -> bool; clock : nat }.
(** what must never happen: a diagram is used after it was reclaimed; a reference is released that nobody took; an operation is read
    behind the end of a circuit *)
Inductive fault := Reclaimed | Underflow | PastEnd.
(** [Hang]: the main loop used up the given number of rounds *)
Inductive res (A : Type) := Ok (a : A) (w : world) | Fault (f : fault) | Hang.
Arguments Ok {A}. Arguments Fault {A}. Arguments Hang {A}.

(** the environment decides everything the programs do not: which node a computation yields (a new one or one that exists already), whether
    the collector runs when asked, what the application scheme answers, when the check is cancelled *)
Record oracle := Oracle { o_node : nat -> node; o_flag : nat -> bool; o_gc : nat -> bool; o_num : nat -> nat; o_done : nat -> bool }.

Definition M (A : Type) := world -> res A.
Definition ret {A} (a : A) : M A := fun w => Ok a w.
Definition bind {A B} (m : M A) (k : A -> M B) : M B :=
  fun w => match m w with Ok a w' => k a w' | Fault f => Fault f | Hang => Hang end.
Definition fail {A} (f : fault) : M A := fun _ => Fault f.
Definition hang {A} : M A := fun _ => Hang.
Declare Scope ref_scope.
Delimit Scope ref_scope with ref.
Notation "x <- m ;; k" := (bind m (fun x => k)) (at level 61, m at next level, right associativity) : ref_scope.
Notation "m ;;; k" := (bind m (fun _ => k)) (at level 61, right associativity) : ref_scope.
Local Open Scope ref_scope.

Definition set {A} (f : node -> A) (n : node) (a : A) : node -> A := fun m => if N.eqb m n then a else f m.
Definition terminal (n : node) : bool := N.eqb n 0.
Definition alive (w : world) (n : node) : bool := terminal n || live w n.

Section Package.
Variable o : oracle.

(** a computation of the package yields a root node: dd::Package::makeIdent, makeZeroState, makeBasisState, makeDDNode; dd::getDD,
    getInverseDD (mqt-core, called in TaskManager.hpp:54-59, DDAlternatingChecker.cpp:24, DDConstructionChecker.hpp:43,
    DDSimulationChecker.cpp:24, StateGenerator.cpp:90, 128, 152-153). None of them collects garbage *)
Definition fresh : M node := fun w =>
  let n := o_node o (clock w) in Ok n (World (cnt w) (set (live w) n true) (S (clock w))).
(** a diagram is read *)
Definition use (n : node) : M unit := fun w => if alive w n then Ok tt w else Fault Reclaimed.
(** dd::Package::multiply (mqt-core; TaskManager.hpp:72-79, LookaheadApplicationScheme.hpp:57-59, DDEquivalenceChecker.cpp:71) *)
Definition multiply (a b : node) : M node := use a ;;; use b ;;; fresh.
(** dd::Package::incRef (mqt-core; TaskManager.hpp:140-141) *)
Definition incRef (n : node) : M unit := fun w =>
  if terminal n then Ok tt w
  else if live w n then Ok tt (World (set (cnt w) n (N.succ (cnt w n))) (live w) (clock w)) else Fault Reclaimed.
(** dd::Package::decRef (mqt-core; TaskManager.hpp:143-144) *)
Definition decRef (n : node) : M unit := fun w =>
  if terminal n then Ok tt w
  else if negb (live w n) then Fault Reclaimed
  else if N.eqb (cnt w n) 0 then Fault Underflow
  else Ok tt (World (set (cnt w) n (N.pred (cnt w n))) (live w) (clock w)).
(** dd::Package::garbageCollect (mqt-core; TaskManager.hpp:84): runs only when the tables are full enough, and reclaims what is not referenced *)
Definition garbageCollect : M unit := fun w =>
  Ok tt (World (cnt w) (if o_gc o (clock w) then fun n => live w n && N.ltb 0 (cnt w n) else live w) (S (clock w))).
(** answers of the environment *)
Definition flag : M bool := fun w => Ok (o_flag o (clock w)) (World (cnt w) (live w) (S (clock w))).
Definition num : M nat := fun w => Ok (o_num o (clock w)) (World (cnt w) (live w) (S (clock w))).
Definition isDone : M bool := fun w => Ok (o_done o (clock w)) (World (cnt w) (live w) (S (clock w))).

(** a new diagram takes over the reference of the one it was computed from, and the collector may run: the body of the loops of
    dd::changePermutation and dd::simulate (mqt-core) *)
Definition replace (old new : node) : M unit := incRef new ;;; decRef old ;;; garbageCollect.
(** dd::changePermutation (mqt-core; TaskManager.hpp:112-116): some number of multiplications by SWAPs *)
Fixpoint swap_times (k : nat) (e : node) : M node :=
  match k with
  | O => ret e
  | S k' => g <- fresh ;; e' <- multiply g e ;; replace e e' ;;; swap_times k' e'
  end.
Definition changePermutation (e : node) : M node := k <- num ;; swap_times k e.
(** dd::Package::reduceAncillae, reduceGarbage (mqt-core; TaskManager.hpp:118-138): the argument itself, or a diagram that takes over its reference *)
Definition reduce (e : node) : M node :=
  use e ;;; b <- flag ;; if b then ret e else r <- fresh ;; incRef r ;;; decRef e ;;; ret r.
(** dd::simulate (mqt-core; StateGenerator.cpp:144): [k] operations; the result carries one reference *)
Definition simulate (k : nat) (e : node) : M node := incRef e ;;; swap_times k e.
End Package.
