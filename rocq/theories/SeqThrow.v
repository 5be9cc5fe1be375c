(** Model of what a sequential run that throws leaves in the manager (SeqFlow.v says only that it throws).
    Source: src/EquivalenceCheckingManager.cpp:412-525, 293-309. No proofs in this file.

    A constructor that throws inside emplace_back (cpp:433, 492, 510) leaves the vector of checkers as it was; when run() of the alternating
    checker throws (cpp:496, DDAlternatingChecker.cpp:27-35), the checker stays in the vector, without a verdict. Results and generator are
    those at that time. *)
From Coq Require Import String List Bool NArith QArith.
From Verif Require Import Criterion Config SeqFlow.
Import ListNotations.
Local Open Scope list_scope.

Section Throw.
Context {Stim Gen : Type}.
Notation env := (env Stim Gen).
Notation mgr := (mgr Stim Gen).
Notation st := (st (Stim := Stim) (Gen := Gen)).

(** cpp:491-507 and 509-525 where they throw: [k] is KAlt or KCon, [s] the state at the beginning of the part *)
Definition exact_left (k : kind) (e : env) (c : config) (s : st) : st :=
  if ctor_throws e c k then tick s else add_checker (mkChecker k NoInformation None) (tick (tick s)).

(** the state in which checkSequential, called on [m], throws; None if it does not *)
Definition sequential_left (fuel : nat) (e : env) (m : mgr) : option st :=
  let c := m_cfg m in
  let s0 := mkSt 0 (m_done m) (m_checkers m) (m_res m) (m_gen m) in
  match seqSim fuel e c s0 with
  | inr Thrown => Some s0
  | inl (Returned s1) =>
      match seqExact KAlt (runAlternatingChecker (exec c)) (e_alt e) (negb (e_canHandle e)) e c s1 with
      | inr Thrown => Some (exact_left KAlt e c s1)
      | inl (Returned s2) =>
          match seqExact KCon (runConstructionChecker (exec c)) (e_con e) false e c s2 with
          | inr Thrown => Some (exact_left KCon e c s2)
          | _ => None
          end
      | _ => None
      end
  | _ => None
  end.

(** the same for run(); the other flows do not throw, except the parallel one (ParAgain.v) *)
Definition run_left (fuel : nat) (e : env) (m : mgr) : option st :=
  match choose_flow e (m_cfg m) with
  | FSequential => sequential_left fuel e (start_run m)
  | _ => None
  end.
End Throw.
