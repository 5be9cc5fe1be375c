(** Model of the numerical tolerance: each manager's configuration has one, but the decision diagram package reads
    a single variable of the process (dd::RealNumber::eps, mqt-core), which every manager overwrites.  No proofs.
    Simplification: one operation at a time (no concurrent use of several managers). *)
From Coq Require Import List Bool NArith QArith Arith.
Import ListNotations.

(** what a program can do; managers are numbered by the caller, numbers may be reused (the old object is destroyed) *)
Inductive op :=
| NewManager (i : nat) (tol : Q)        (* constructor with configuration.execution.numericalTolerance = tol *)
| NewManagerDefault (i : nat)           (* constructor with a default-constructed Configuration *)
| SetTolerance (i : nat) (tol : Q)      (* EquivalenceCheckingManager::setTolerance *)
| Run (i : nat).

(** [glob]: dd::RealNumber::eps; [conf i]: numericalTolerance in the configuration of manager [i] *)
Record proc := mkProc { glob : Q; conf : nat -> option Q }.
Definition put (f : nat -> option Q) (i : nat) (q : Q) : nat -> option Q := fun j => if Nat.eqb j i then Some q else f j.

(** EquivalenceCheckingManager.hpp:119-122 (also called by the constructor, cpp:362-363); Configuration.hpp:26 reads
    the variable when a configuration is default-constructed; run() does not touch it (cpp:293-352) *)
Definition do_op (o : op) (p : proc) : proc :=
  match o with
  | NewManager i tol => mkProc tol (put (conf p) i tol)
  | NewManagerDefault i => mkProc (glob p) (put (conf p) i (glob p))
  | SetTolerance i tol => match conf p i with Some _ => mkProc tol (put (conf p) i tol) | None => p end
  | Run _ => p
  end.
Definition start (eps : Q) : proc := mkProc eps (fun _ => None).
Definition do_ops (eps : Q) (l : list op) : proc := fold_left (fun p o => do_op o p) l (start eps).

(** the tolerance the decision diagrams of a run started now use, and the one the report of manager [i] shows
    (results.configuration = configuration, cpp:307; Configuration.cpp:56) *)
Definition used (p : proc) : Q := glob p.
Definition reported (p : proc) (i : nat) : option Q := conf p i.
