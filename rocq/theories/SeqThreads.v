(** The sequential and the symbolic flow next to their timeout thread, one step per access to what the two threads share.  No proofs.

    Sources: src/EquivalenceCheckingManager.cpp:412-584, 848-895; include/EquivalenceCheckingManager.hpp:255-266, 288-295.

    The calling thread is a program over its interactions with the shared state: reading and writing [done], notifying the condition variable,
    changing the vector of checkers, running a checker (which polls its own flag).  Everything else it does is as in SeqFlow.v.  The other
    thread is the body of the lambda at 419-429 / 854-864, with std::condition_variable::wait_for spelled out: the predicate is evaluated
    with the mutex held, releasing the mutex and starting to wait is one atomic step, and whoever is woken evaluates the predicate again.

    Simplifications: steps are atomic and sequentially consistent; constructing a checker and appending it is one step; polling the flag
    happens once per run, at its end; the loop over the checkers at hpp:290-294 takes one step per checker. *)
From Coq Require Import String List Bool NArith QArith Arith.
From Verif Require Import Criterion Config SeqFlow Trace.
Import ListNotations.
Local Open Scope list_scope.

(** what the calling thread does with the shared state *)
Inductive prog (A : Type) :=
| PRead (k : bool -> prog A)      (* reads [done] *)
| PSet (p : prog A)               (* done = true *)
| PNotify (p : prog A)            (* doneCond.notify_one() *)
| PEmplace (p : prog A)           (* checkers.emplace_back(...) *)
| PClear (p : prog A)             (* checkers.clear() *)
| PRun (k : bool -> prog A)       (* runs the last checker; the answer says whether it was cut short *)
| PJoin (p : prog A)              (* timeoutThread.join(), if joinable *)
| PLeave (a : A).                 (* the function is left *)
Arguments PRead {A}. Arguments PSet {A}. Arguments PNotify {A}. Arguments PEmplace {A}. Arguments PClear {A}. Arguments PRun {A}.
Arguments PJoin {A}. Arguments PLeave {A}.

Section Programs.
Context {Stim Gen : Type}.
Notation env := (env Stim Gen).
Notation checker := (checker Stim).
Notation results := (results Stim).

(** what the function leaves behind: the checkers, the results, the generator *)
Record left_over := mkLeft { f_chk : list checker; f_res : results; f_gen : Gen }.
Notation act := (prog (outcome left_over)).
Definition with_fres (r : results) (s : left_over) : left_over := mkLeft (f_chk s) r (f_gen s).
Definition add_fchk (k : checker) (s : left_over) : left_over := mkLeft (f_chk s ++ [k]) (f_res s) (f_gen s).

Definition announce (p : act) : act := PSet (PNotify p).
(** lines 578-583: the end of the function *)
Definition at_end (s : left_over) : act := PJoin (PLeave (Returned s)).
Definition if_not_done (yes no : act) : act := PRead (fun d => if d then no else yes).

(** lines 437-465; [exit] is called with the checker's verdict member and stimulus *)
Fixpoint sim_loop (fuel : nat) (e : env) (c : config) (q : criterion) (stm : option Stim) (r : results) (g : Gen)
    (exit : criterion -> option Stim -> results -> Gen -> act) (old : list checker) : act :=
  match fuel with
  | O => PLeave Diverged
  | S fuel' =>
      if simulationsFinished c r then exit q stm r g else
      if_not_done
        (match e_gen e g with
         | None => PLeave Diverged
         | Some (x, g') =>
             PRun (fun cut =>
               let q' := if cut then q else scrit (e_sim e x) in
               let r2 := set_counts (r_started r + 1) (r_performed r + 1) r in
               match q' with
               | NoInformation =>                              (* 447-453, with the read in 448 *)
                   PRead (fun _ => PLeave (if hasTimeout c then Terminated
                                           else Returned (mkLeft (old ++ [mkChecker KSim q' (Some x)]) r2 g')))
               | NotEquivalent => exit q' (Some x) (set_eq NotEquivalent r2) g'
               | _ => sim_loop fuel' e c q' (Some x) (set_eq ProbablyEquivalent r2) g' exit old
               end)
         end)
        (exit q stm r g)
  end.

(** lines 432-489 *)
Definition sim_part (fuel : nat) (e : env) (c : config) (s : left_over) (next : left_over -> act) : act :=
  if negb (runSimulationChecker (exec c)) then next s else
  if ctor_throws e c KSim then PLeave (leave_by_exception c) else
  PEmplace (sim_loop fuel e c NoInformation None (f_res s) (f_gen s)
    (fun q stm r g =>
       let refuted := criterion_eqb (r_eq r) NotEquivalent in
       let r' := if refuted then set_cex (if storeCEXinput (sim c) then stm else r_cexIn r)
                                         (if storeCEXoutput (sim c) then stm else r_cexOut r) r else r in
       let s' := mkLeft (f_chk s ++ [mkChecker KSim q stm]) r' g in
       let rest := if onlySimulationCheckerConfigured c && simulationsFinished c r then announce (next s') else next s' in
       if refuted then announce rest else rest)
    (f_chk s)).

(** lines 491-507 and 509-525 *)
Definition exact_part (k : kind) (enabled : bool) (v : mverdict) (run_throws : bool) (e : env) (c : config) (s : left_over)
    (next : left_over -> act) : act :=
  if negb enabled then next s else
  if_not_done
    (if ctor_throws e c k then PLeave (leave_by_exception c) else
     PEmplace (if_not_done
       (if run_throws then PLeave (leave_by_exception c) else
        PRun (fun cut =>
          let result := if cut then NoInformation else mcrit v in
          let s' := add_fchk (mkChecker k result None) s in
          match result with
          | NoInformation => next s'
          | _ => announce (next (with_fres (set_eq result (f_res s')) s'))
          end))
       (next (add_fchk (mkChecker k NoInformation None) s))))
    (next s).

(** lines 527-575 *)
Definition zx_part (e : env) (c : config) (s : left_over) : act :=
  if negb (runZXChecker (exec c)) then at_end s else
  if_not_done
    (if e_transformable e then
       if negb (e_zx_perm_ok e) then PLeave Terminated else
       PEmplace (if_not_done
         (PRun (fun cut =>
            let result := if cut then NoInformation else zcrit (e_ancilla e) (e_zx e) in
            let s' := add_fchk (mkChecker KZX result None) s in
            let r := f_res s' in
            announce
              match result with
              | Equivalent | EquivalentUpToGlobalPhase => at_end (with_fres (set_eq result r) s')
              | ProbablyNotEquivalent =>
                  at_end (with_fres (set_eq (if criterion_eqb (r_eq r) ProbablyEquivalent then NoInformation else result) r) s')
              | _ =>
                  if criterion_eqb (r_eq r) NoInformation && negb (onlyZXCheckerConfigured c) && negb (e_ndebug e)
                  then PLeave AssertFailed else at_end s'
              end))
         (at_end (add_fchk (mkChecker KZX NoInformation None) s)))
     else if onlyZXCheckerConfigured c
          then PClear (at_end (mkLeft [] (set_eq NoInformation (f_res s)) (f_gen s)))
          else at_end s)
    (at_end s).

(** checkSequential, lines 412-584; [fuel] bounds the simulations the model follows *)
Definition sequential_prog (fuel : nat) (e : env) (c : config) (s : left_over) : act :=
  sim_part fuel e c s (fun s =>
  exact_part KAlt (runAlternatingChecker (exec c)) (e_alt e) (negb (e_canHandle e)) e c s (fun s =>
  exact_part KCon (runConstructionChecker (exec c)) (e_con e) false e c s (fun s =>
  zx_part e c s))).

(** checkSymbolic, lines 848-895 *)
Definition symbolic_prog (e : env) (c : config) (s : left_over) : act :=
  if_not_done
    (if e_transformable e then
       if negb (e_zx_perm_ok e) then PLeave Terminated else
       PEmplace (if_not_done
         (PRun (fun cut =>
            let result := if cut then NoInformation else zcrit (e_ancilla e) (e_zx e) in
            let s' := add_fchk (mkChecker KZX result None) s in
            announce (at_end (with_fres (set_eq result (f_res s')) s'))))
         (at_end (add_fchk (mkChecker KZX NoInformation None) s)))
     else PClear (PLeave (if hasTimeout c then Terminated            (* 886: returns without joining *)
                          else Returned (mkLeft [] (set_eq NoInformation (f_res s)) (f_gen s)))))
    (at_end s).
End Programs.
Arguments left_over : clear implicits.

Local Open Scope nat_scope.
(** *** the two threads *)
(** the timeout thread, 419-429 *)
Inductive tpc :=
| TNone             (* no timeout configured *)
| TStart            (* before the lock at 421 *)
| TCheck            (* holds the mutex, about to evaluate the predicate *)
| TEnqueue          (* the predicate was false; about to release the mutex and to wait *)
| TWait             (* waiting *)
| TWoken            (* notified or woken spuriously, about to take the mutex *)
| TLate             (* the deadline has passed, about to take the mutex and to evaluate the predicate *)
| TFire             (* setAndSignalDone: about to set [done], hpp:289 *)
| TSignal (j n : nat)  (* in the loop at hpp:290-294 over the [n] checkers that were there at its start *)
| TExit             (* about to release the mutex *)
| TEnded.

Record shared (A : Type) := mkSh {
  w_prog : prog A;
  w_done : bool;           (* hpp:261 *)
  w_len : nat;             (* checkers.size(), hpp:264 *)
  w_flag : nat -> bool;    (* the flags of the checkers, EquivalenceChecker.hpp:59 *)
  w_tm : tpc;
  w_ub : bool }.           (* the vector was changed while the other thread iterated over it *)
Arguments mkSh {A}. Arguments w_prog {A}. Arguments w_done {A}. Arguments w_len {A}. Arguments w_flag {A}. Arguments w_tm {A}. Arguments w_ub {A}.

(** steps: the calling thread (the argument answers whether a running checker gives up), the timeout thread, a spurious wake-up, the deadline *)
Inductive sact := SMain (cut : bool) | STimer | SSpurious | SDeadline.

Section Steps.
Context {A : Type}.
Notation shared := (shared A).

Definition iterating (t : tpc) : bool := match t with TSignal _ _ => true | _ => false end.
Definition upd_flag (f : nat -> bool) (k : nat) (b : bool) : nat -> bool := fun i => if Nat.eqb i k then b else f i.

Definition smain (cut : bool) (w : shared) : option shared :=
  match w_prog w with
  | PRead k => Some (mkSh (k (w_done w)) (w_done w) (w_len w) (w_flag w) (w_tm w) (w_ub w))
  | PSet p => Some (mkSh p true (w_len w) (w_flag w) (w_tm w) (w_ub w))
  | PNotify p => Some (mkSh p (w_done w) (w_len w) (w_flag w) (match w_tm w with TWait => TWoken | t => t end) (w_ub w))
  | PEmplace p => Some (mkSh p (w_done w) (S (w_len w)) (upd_flag (w_flag w) (w_len w) false) (w_tm w) (iterating (w_tm w)))
  | PClear p => Some (mkSh p (w_done w) 0 (w_flag w) (w_tm w) (iterating (w_tm w)))
  | PRun k => if negb cut || w_flag w (Nat.pred (w_len w))
              then Some (mkSh (k cut) (w_done w) (w_len w) (w_flag w) (w_tm w) (w_ub w)) else None
  | PJoin p => match w_tm w with
               | TNone | TEnded => Some (mkSh p (w_done w) (w_len w) (w_flag w) (w_tm w) (w_ub w))
               | _ => None
               end
  | PLeave _ => None
  end.

Definition set_tm (t : tpc) (w : shared) : shared := mkSh (w_prog w) (w_done w) (w_len w) (w_flag w) t (w_ub w).
Definition stimer (w : shared) : option shared :=
  match w_tm w with
  | TStart => Some (set_tm TCheck w)
  | TCheck => Some (set_tm (if w_done w then TExit else TEnqueue) w)
  | TEnqueue => Some (set_tm TWait w)
  | TWoken => Some (set_tm TCheck w)
  | TLate => Some (set_tm (if w_done w then TExit else TFire) w)
  | TFire => Some (mkSh (w_prog w) true (w_len w) (w_flag w) (TSignal 0 (w_len w)) (w_ub w))
  | TSignal j n => if Nat.ltb j n
                   then Some (mkSh (w_prog w) (w_done w) (w_len w) (upd_flag (w_flag w) j true) (TSignal (S j) n) (w_ub w))
                   else Some (set_tm TExit w)
  | TExit => Some (set_tm TEnded w)
  | TNone | TWait | TEnded => None
  end.

(** after undefined behaviour nothing is said any more; a thread that has left the function ends the model *)
Definition stopped (w : shared) : bool := w_ub w || match w_prog w with PLeave _ => true | _ => false end.
Definition sstep (a : sact) (w : shared) : option shared :=
  if stopped w then None else
  match a with
  | SMain cut => smain cut w
  | STimer => stimer w
  | SSpurious => match w_tm w with TWait => Some (set_tm TWoken w) | _ => None end
  | SDeadline => match w_tm w with TWait => Some (set_tm TLate w) | _ => None end
  end.
Fixpoint srun (acts : list sact) (w : shared) : option shared :=
  match acts with
  | [] => Some w
  | a :: rest => match sstep a w with Some w' => srun rest w' | None => None end
  end.

(** the function starts: [done] was set to false by run() (cpp:294), [n] checkers are left from earlier runs *)
Definition s_init (timeout : bool) (p : prog A) (n : nat) (f : nat -> bool) : shared :=
  mkSh p false n f (if timeout then TStart else TNone) false.

(** *** the accesses of a step; the calling thread is 0, the timeout thread 1 *)
Inductive sloc := SDone | SVec | SChk (i : nat) | SFlag (i : nat).   (* done; the vector; the object of checker i; its flag *)
Definition mdone : nat := 0.
Definition main_accesses (w : shared) : list (what sloc) :=
  match w_prog w with
  | PRead _ => [Acc Rd SDone]
  | PSet _ => [Acc Wr SDone]
  | PEmplace _ => [Acc Wr (SChk (w_len w)); Acc Wr (SFlag (w_len w)); Acc Rd SVec; Acc Wr SVec]
  | PClear _ => [Acc Rd SVec; Acc Wr SVec]
  | PRun _ => [Acc Rd (SChk (Nat.pred (w_len w))); Acc AtomicRd (SFlag (Nat.pred (w_len w))); Acc Wr (SChk (Nat.pred (w_len w)))]
  | PJoin _ => match w_tm w with TEnded => [Join 1] | _ => [] end
  | PNotify _ | PLeave _ => []
  end.
Definition timer_accesses (w : shared) : list (what sloc) :=
  match w_tm w with
  | TStart | TWoken => [Lock mdone]
  | TCheck => [Acc Rd SDone]
  | TEnqueue | TExit => [Unlock mdone]
  | TLate => [Lock mdone; Acc Rd SDone]
  | TFire => [Acc Wr SDone; Acc Rd SVec]
  | TSignal j n => if Nat.ltb j n then [Acc Rd SVec; Acc AtomicWr (SFlag j)] else []
  | TNone | TWait | TEnded => []
  end.
Definition step_accesses (a : sact) (w : shared) : trace sloc :=
  match a with
  | SMain _ => map (pair 0) (main_accesses w)
  | STimer => map (pair 1) (timer_accesses w)
  | SSpurious | SDeadline => []
  end.
Fixpoint strace (acts : list sact) (w : shared) : trace sloc :=
  match acts with
  | [] => []
  | a :: rest => match sstep a w with Some w' => step_accesses a w ++ strace rest w' | None => [] end
  end.
(** run() sets [done] to false; the thread is started *)
Definition s_prefix (timeout : bool) : trace sloc :=
  (0, Acc Wr SDone) :: (if timeout then [(0, Fork 1)] else []).
End Steps.
