(** Model of a parallel check on a manager that has been used before and has not been reset (Python offers no reset() at all).
    Sources: src/EquivalenceCheckingManager.cpp:293-307, 586-846; include/EquivalenceCheckingManager.hpp:104-108, 299-353;
    include/checker/EquivalenceChecker.hpp:39-57. No proofs in this file.

    It differs from ParFlow.v, which starts without checkers, in three points.
    - [checkers.resize(n)] (cpp:642) keeps the checkers of the run before, and [if (!checker)] (hpp:329) then constructs none, whatever kind of
      checker is to be run and whatever the configuration has become.
    - a checker that was told to stop stays so: [done] of EquivalenceChecker is set once and never cleared.
    - counters and counterexamples of the results are kept; only the verdict is reset (cpp:309).
    Simplifications: as in ParFlow.v. *)
From Coq Require Import String List Bool NArith QArith Arith.
From Verif Require Import Criterion Config SeqFlow ParFlow.
Import ListNotations.
Local Open Scope list_scope.

Section Again.
Context {Stim Gen : Type}.
Notation env := (env Stim Gen).
Notation checker := (checker Stim).
Notation results := (results Stim).
Notation pst := (pst Stim Gen).
Notation slot := (slot Stim).

(** an element of the manager's vector of checkers: null or a checker, and that checker's flag 'done' *)
Definition left_over : Type := option checker * bool.
(** the vector after a parallel check *)
Definition left_by (s : pst) : list left_over := map (fun x => (sl_chk x, sl_flag x)) (p_slots s).

(** std::vector::resize, cpp:642 *)
Definition resize (n : nat) (l : list left_over) : list left_over := firstn n l ++ repeat (None, false) (n - length l).
Definition old_slot (o : left_over) : slot := mkSlot (fst o) (snd o) WIdle false.

(** cpp:586-650 on a manager with checkers [l] and results [r]; in the case of an unsupported circuit with only ZX configured all checkers are
    told to stop (cpp:632) before the vector is emptied *)
Definition par_again (e : env) (c : config) (l : list left_over) (r : results) (g : Gen) : pst :=
  mkP (par_cfg e c) (map old_slot (resize (N.to_nat (effectiveThreads e c)) l)) []
      (zx_alone_unsupported e c)
      (if zx_alone_unsupported e c then MEnd else MLaunch (launches e c)) 0
      (set_eq NoInformation r) g [].

(** run() of a checker that has been told to stop before: DDEquivalenceChecker.cpp:104-123 (initialize() may still refuse the circuits,
    DDAlternatingChecker.cpp:30-35; the verdict stays as it is) and ZXChecker.cpp:98-104 (no information) *)
Definition stopped_run (e : env) (k : checker) : option checker :=
  match k_kind k with
  | KAlt => if e_canHandle e then Some k else None
  | KZX => Some (mkChecker KZX NoInformation (k_stim k))
  | _ => Some k
  end.

(** one step of worker [i], hpp:326-347 *)
Definition again_worker (e : env) (i : nat) (s : pst) : option pst :=
  if negb (live s) then None else
  match nth_error (p_slots s) i with
  | None => None
  | Some x =>
      match sl_w x, sl_chk x with
      | WDraw, Some k =>
          (* hpp:334-337: the dynamic_cast gives null for any other kind of checker, and the call is undefined behaviour *)
          match k_kind k with KSim => worker_step e i s | _ => Some (set_main MNullDeref s) end
      | WRead, Some k =>
          if p_done s then worker_step e i s
          else if sl_flag x
          then match stopped_run e k with
               | Some k' => Some (set_slot i (mkSlot (Some k') true WPush (sl_exn x)) s)
               | None => Some (set_slot i (mkSlot (Some k) true WPush true) s)
               end
          else worker_step e i s
      | _, _ => worker_step e i s
      end
  end.

Definition astep (e : env) (a : action) (s : pst) : option pst :=
  match a with
  | AMain => main_step s
  | ATimeout => timeout_step s
  | AWorker i => again_worker e i s
  | AAbort i => abort_step i s
  end.
Fixpoint arun (e : env) (acts : list action) (s : pst) : option pst :=
  match acts with
  | [] => Some s
  | a :: rest => match astep e a s with Some s' => arun e rest s' | None => None end
  end.
End Again.
Arguments left_over : clear implicits.
