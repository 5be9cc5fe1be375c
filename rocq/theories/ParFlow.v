(** Model of EquivalenceCheckingManager::checkParallel, asyncRunChecker and setAndSignalDone as
    a labelled transition system: the main thread and one worker per slot interleave freely.
    No proofs in this file.

    Sources: src/EquivalenceCheckingManager.cpp:586-846, include/EquivalenceCheckingManager.hpp:299-353.

    Simplifications:
    - sequentially consistent memory; the C++ data race on the unique_ptrs in [checkers] (written by
      workers, read by setAndSignalDone) is treated as a pair of atomic accesses;
    - the manager is fresh or reset (no left-over checkers; see C12);
    - the queue is an atomic FIFO here; the real two-lock queue is the subject of Queue.v;
    - an uninterrupted checker run is one step that yields the verdict given by [env];
    - wall-clock times and log output are not modelled. *)
From Coq Require Import String List Bool NArith QArith Arith.
From Verif Require Import Criterion Config SeqFlow.
Import ListNotations.
Local Open Scope list_scope.

Section Par.
Context {Stim Gen : Type}.
Notation env := (env Stim Gen).
Notation checker := (checker Stim).
Notation results := (results Stim).

(** program counter of a worker, EquivalenceCheckingManager.hpp:326-349 *)
Inductive wpc :=
| WIdle                 (* no thread, or the thread has ended *)
| WStart (k : kind)     (* about to execute [if (!checker) ...], line 329 *)
| WDraw                 (* simulation only: about to draw a stimulus, lines 333-338 *)
| WRead                 (* about to read [done], line 340 *)
| WRun                  (* inside checker->run(), line 341 *)
| WPush.                (* about to push the id, line 343 or 345 *)

Record slot := mkSlot {
  sl_chk : option checker;  (* checkers[id] *)
  sl_flag : bool;           (* the checker's own done flag, EquivalenceChecker.hpp:39-42 *)
  sl_w : wpc;
  sl_exn : bool }.          (* futures[id] holds an exception *)

(** program counter of the main thread *)
Inductive mpc :=
| MLaunch (ks : list kind)  (* lines 652-681: these workers are still to be launched *)
| MLoop                     (* line 684: while (!done), waiting for the queue *)
| MSignal (j : nat)         (* inside setAndSignalDone, next slot j, hpp:301-305 *)
| MEnd                      (* after the loop: the futures' destructors wait for the workers *)
| MUnwind                   (* an exception leaves the function; the destructors wait as well *)
| MReturned | MThrown       (* run() has returned / thrown *)
| MNullDeref                (* run() dereferences a null checker, cpp:337-341 *)
| MOutOfBounds              (* checkers[id] with id >= size, hpp:328 *)
| MTerminated.              (* exception inside the noexcept ZX constructor *)

Record pst := mkP {
  p_cfg : config;
  p_slots : list slot;
  p_queue : list nat;
  p_done : bool;
  p_main : mpc;
  p_next : nat;             (* [id] during launching *)
  p_res : results;
  p_gen : Gen;
  (* ghost: checkers whose results the main thread has consumed, most recent first *)
  p_log : list (kind * criterion * option Stim) }.

(** cpp:607-637: the configuration as adapted by the flow, and the number of tasks *)
Definition two64 : N := (2 ^ 64)%N.
Definition nb (b : bool) : N := if b then 1%N else 0%N.
Definition set_runs (runSim runZX : bool) (c : config) : config :=
  mkConfig (mkExecution (numericalTolerance (exec c)) (parallel (exec c)) (nthreads (exec c)) (timeout (exec c))
              (runConstructionChecker (exec c)) runSim (runAlternatingChecker (exec c)) runZX)
           (opts c) (app c) (func c) (sim c) (par c).
Definition simOn (c : config) : bool := runSimulationChecker (exec c) && N.ltb 0 (maxSims (sim c)).
Definition par_cfg1 (c : config) : config := set_runs (simOn c) (runZXChecker (exec c)) c.
(** only ZX configured and a circuit is not supported: lines 628-633 *)
Definition zx_alone_unsupported (e : env) (c : config) : bool :=
  runZXChecker (exec c) && negb (e_transformable e) && onlyZXCheckerConfigured (par_cfg1 c).
Definition par_cfg (e : env) (c : config) : config :=
  if zx_alone_unsupported e c then par_cfg1 c
  else set_runs (simOn c) (runZXChecker (exec c) && e_transformable e) c.
Definition zxOn (e : env) (c : config) : bool := runZXChecker (exec c) && e_transformable e.
Definition tasksToExecute (e : env) (c : config) : N :=
  ((nb (runAlternatingChecker (exec c)) + nb (runConstructionChecker (exec c)) +
    (if simOn c then maxSims (sim c) else 0) + nb (zxOn e c)) mod two64)%N.
(** line 638 *)
Definition effectiveThreads (e : env) (c : config) : N :=
  N.min (nthreads (exec c)) (tasksToExecute e c).
(** workers launched by lines 652-681, in order; the subtraction in line 672 is modulo 2^64 *)
Definition exact_launches (e : env) (c : config) : list kind :=
  (if runAlternatingChecker (exec c) then [KAlt] else []) ++
  (if runConstructionChecker (exec c) then [KCon] else []) ++
  (if zxOn e c then [KZX] else []).
Definition simulationsToStart (e : env) (c : config) : N :=
  let nf := N.of_nat (length (exact_launches e c)) in
  if simOn c then N.min ((effectiveThreads e c + two64 - nf) mod two64) (maxSims (sim c)) else 0%N.
Definition launches (e : env) (c : config) : list kind :=
  exact_launches e c ++ repeat KSim (N.to_nat (simulationsToStart e c)).

Definition empty_slot : slot := mkSlot None false WIdle false.

(** cpp:586-650 on a fresh manager *)
Definition par_init (e : env) (c : config) (g : Gen) (pp : Q) : pst :=
  mkP (par_cfg e c) (repeat empty_slot (N.to_nat (effectiveThreads e c))) []
      (zx_alone_unsupported e c)
      (if zx_alone_unsupported e c then MEnd else MLaunch (launches e c)) 0
      (mkResults NoInformation 0 0 None None pp) g [].

(** verdict of an uninterrupted run *)
Definition natural (e : env) (k : kind) (stm : option Stim) : criterion :=
  match k with
  | KAlt => mcrit (e_alt e) | KCon => mcrit (e_con e) | KZX => zcrit (e_ancilla e) (e_zx e)
  | KSim => match stm with Some s => scrit (e_sim e s) | None => NoInformation end
  end.

(** what the main thread does with a consumed result, cpp:703-832.
    [Stop r]: setAndSignalDone and break; [Continue r]; [Restart r]: line 824-828 *)
Inductive decision := Stop (r : results) | Continue (r : results) | Restart (r : results).
Definition is_ce (a b : criterion) : bool := criterion_eqb a b.
Definition handle (c : config) (r : results) (k : kind) (q : criterion) (stm : option Stim) : decision :=
  match q with
  | NoInformation =>
      match k with
      | KZX => if onlyZXCheckerConfigured c then Stop r else Continue r
      | _ => Stop (set_eq NoInformation r)
      end
  | NotEquivalent =>
      let r1 := set_eq NotEquivalent r in
      match k with
      | KSim =>
          let r2 := set_counts (r_started r1) (r_performed r1 + 1) r1 in
          Stop (set_cex (if storeCEXinput (sim c) then stm else r_cexIn r2)
                        (if storeCEXoutput (sim c) then stm else r_cexOut r2) r2)
      | _ => Stop r1
      end
  | _ =>
      match k with
      | KAlt | KCon => Stop (set_eq q r)
      | KZX =>
          match q with
          | Equivalent | EquivalentUpToGlobalPhase => Stop (set_eq q r)
          | ProbablyNotEquivalent =>
              if is_ce (r_eq r) ProbablyEquivalent then
                if simulationsFinished c r then Stop (set_eq NoInformation r) else Continue (set_eq q r)
              else if is_ce (r_eq r) NoInformation then
                if onlyZXCheckerConfigured c then Stop (set_eq q r) else Continue (set_eq q r)
              else Continue r
          | _ => Continue r
          end
      | KSim =>
          let r1 := set_counts (r_started r) (r_performed r + 1) r in
          let r2 := if is_ce (r_eq r1) NoInformation then set_eq ProbablyEquivalent r1 else r1 in
          if simulationsFinished c r2 then
            if onlySimulationCheckerConfigured c then Stop r2
            else if is_ce (r_eq r2) ProbablyNotEquivalent then Stop (set_eq NoInformation r2)
            else Continue r2
          else if N.ltb (r_started r2) (maxSims (sim c))
          then Restart (set_counts (r_started r2 + 1) (r_performed r2) r2)
          else Continue r2
      end
  end.

(** *** state updates *)
Fixpoint upd {A} (l : list A) (i : nat) (x : A) : list A :=
  match l, i with
  | [], _ => []
  | _ :: t, O => x :: t
  | h :: t, S j => h :: upd t j x
  end.
Definition set_slot (i : nat) (x : slot) (s : pst) : pst :=
  mkP (p_cfg s) (upd (p_slots s) i x) (p_queue s) (p_done s) (p_main s) (p_next s) (p_res s) (p_gen s) (p_log s).
Definition set_main (m : mpc) (s : pst) : pst :=
  mkP (p_cfg s) (p_slots s) (p_queue s) (p_done s) m (p_next s) (p_res s) (p_gen s) (p_log s).
Definition set_pres (r : results) (s : pst) : pst :=
  mkP (p_cfg s) (p_slots s) (p_queue s) (p_done s) (p_main s) (p_next s) r (p_gen s) (p_log s).
Definition set_pdone (s : pst) : pst :=
  mkP (p_cfg s) (p_slots s) (p_queue s) true (p_main s) (p_next s) (p_res s) (p_gen s) (p_log s).
Definition set_next (n : nat) (s : pst) : pst :=
  mkP (p_cfg s) (p_slots s) (p_queue s) (p_done s) (p_main s) n (p_res s) (p_gen s) (p_log s).
Definition set_queue (q : list nat) (s : pst) : pst :=
  mkP (p_cfg s) (p_slots s) q (p_done s) (p_main s) (p_next s) (p_res s) (p_gen s) (p_log s).
Definition set_pgen (g : Gen) (s : pst) : pst :=
  mkP (p_cfg s) (p_slots s) (p_queue s) (p_done s) (p_main s) (p_next s) (p_res s) g (p_log s).
Definition add_log (x : kind * criterion * option Stim) (s : pst) : pst :=
  mkP (p_cfg s) (p_slots s) (p_queue s) (p_done s) (p_main s) (p_next s) (p_res s) (p_gen s) (x :: p_log s).

Definition slot_w (w : wpc) (x : slot) : slot := mkSlot (sl_chk x) (sl_flag x) w (sl_exn x).
Definition is_idle (x : slot) : bool := match sl_w x with WIdle => true | _ => false end.
Definition has_chk (x : slot) : bool := match sl_chk x with Some _ => true | None => false end.

(** setAndSignalDone starts: [done = true] (hpp:300); the loop over the checkers follows *)
Definition begin_signal (s : pst) : pst := set_main (MSignal 0) (set_pdone s).

(** *** one step of the main thread *)
Definition main_step (s : pst) : option pst :=
  match p_main s with
  | MLaunch [] => Some (set_main MLoop s)
  | MLaunch (k :: ks) =>
      (* asyncRunChecker(id, queue); ++id; the new thread will access checkers[id] *)
      match nth_error (p_slots s) (p_next s) with
      | None => Some (set_main MOutOfBounds s)
      | Some x =>
          let r := p_res s in
          let r' := match k with KSim => set_counts (r_started r + 1) (r_performed r) r | _ => r end in
          Some (set_main (MLaunch ks) (set_next (S (p_next s)) (set_pres r'
                 (set_slot (p_next s) (mkSlot (sl_chk x) (sl_flag x) (WStart k) false) s))))
      end
  | MLoop =>
      match p_queue s with
      | [] => None                        (* blocked in waitAndPop *)
      | i :: q =>
          let s1 := set_queue q s in
          match nth_error (p_slots s) i with
          | None => Some (set_main MOutOfBounds s1)
          | Some x =>
              if negb (is_idle x) then None (* futures.at(id).get() blocks *)
              else if sl_exn x then Some (set_main MUnwind s1)
              else match sl_chk x with
                   | None => Some (set_main MNullDeref s1)
                   | Some k =>
                       let s2 := add_log (k_kind k, k_eq k, k_stim k) s1 in
                       match handle (p_cfg s) (p_res s) (k_kind k) (k_eq k) (k_stim k) with
                       | Stop r => Some (begin_signal (set_pres r s2))
                       | Continue r => Some (set_pres r s2)
                       | Restart r => Some (set_pres r (set_slot i (slot_w (WStart KSim) x) s2))
                       end
                   end
          end
      end
  | MSignal j =>
      match nth_error (p_slots s) j with
      | None => Some (set_main MEnd s)
      | Some x =>
          let x' := if has_chk x then mkSlot (sl_chk x) true (sl_w x) (sl_exn x) else x in
          Some (set_main (MSignal (S j)) (set_slot j x' s))
      end
  | MEnd =>
      if forallb is_idle (p_slots s) then
        Some (set_main (if forallb has_chk (p_slots s) then MReturned else MNullDeref) s)
      else None
  | MUnwind => if forallb is_idle (p_slots s) then Some (set_main MThrown s) else None
  | _ => None
  end.

(** the timed wait expires: only with a timeout configured and an empty queue (cpp:686-697) *)
Definition timeout_step (s : pst) : option pst :=
  match p_main s, p_queue s with
  | MLoop, [] => if hasTimeout (p_cfg s) then Some (begin_signal s) else None
  | _, _ => None
  end.

(** *** one step of worker [i] *)
Definition live (s : pst) : bool :=
  match p_main s with MOutOfBounds | MTerminated | MReturned | MThrown | MNullDeref => false | _ => true end.

Definition worker_step (e : env) (i : nat) (s : pst) : option pst :=
  if negb (live s) then None else
  match nth_error (p_slots s) i with
  | None => None
  | Some x =>
      match sl_w x with
      | WIdle => None
      | WStart k =>
          let next := match k with KSim => WDraw | _ => WRead end in
          match sl_chk x with
          | Some _ => Some (set_slot i (slot_w next x) s)
          | None =>
              if ctor_throws e (p_cfg s) k then Some (set_slot i (mkSlot None false WPush true) s)
              else match k with
                   | KZX => if e_zx_perm_ok e
                            then Some (set_slot i (mkSlot (Some (mkChecker k NoInformation None)) false next false) s)
                            else Some (set_main MTerminated s)
                   | _ => Some (set_slot i (mkSlot (Some (mkChecker k NoInformation None)) false next false) s)
                   end
          end
      | WDraw =>
          match e_gen e (p_gen s), sl_chk x with
          | Some (stm, g'), Some k =>
              Some (set_pgen g' (set_slot i (mkSlot (Some (mkChecker (k_kind k) (k_eq k) (Some stm)))
                                               (sl_flag x) WRead (sl_exn x)) s))
          | _, _ => None
          end
      | WRead => Some (set_slot i (slot_w (if p_done s then WPush else WRun) x) s)
      | WRun =>
          match sl_chk x with
          | None => None
          | Some k =>
              match k_kind k, e_canHandle e with
              | KAlt, false => Some (set_slot i (mkSlot (sl_chk x) (sl_flag x) WPush true) s)
              | _, _ =>
                  Some (set_slot i (mkSlot (Some (mkChecker (k_kind k) (natural e (k_kind k) (k_stim k)) (k_stim k)))
                                      (sl_flag x) WPush (sl_exn x)) s)
              end
          end
      | WPush => Some (set_queue (p_queue s ++ [i]) (set_slot i (slot_w WIdle x) s))
      end
  end.

(** worker [i] notices its flag inside run() and gives up: DDEquivalenceChecker.cpp:121-123 (verdict
    member unchanged), ZXChecker.cpp:101-104 (no information) *)
Definition abort_step (i : nat) (s : pst) : option pst :=
  if negb (live s) then None else
  match nth_error (p_slots s) i with
  | None => None
  | Some x =>
      match sl_w x, sl_chk x, sl_flag x with
      | WRun, Some k, true =>
          let q := match k_kind k with KZX => NoInformation | _ => k_eq k end in
          Some (set_slot i (mkSlot (Some (mkChecker (k_kind k) q (k_stim k))) true WPush (sl_exn x)) s)
      | _, _, _ => None
      end
  end.

Inductive action := AMain | ATimeout | AWorker (i : nat) | AAbort (i : nat).

Definition pstep (e : env) (a : action) (s : pst) : option pst :=
  match a with
  | AMain => main_step s
  | ATimeout => timeout_step s
  | AWorker i => worker_step e i s
  | AAbort i => abort_step i s
  end.

(** executing a schedule *)
Fixpoint prun (e : env) (acts : list action) (s : pst) : option pst :=
  match acts with
  | [] => Some s
  | a :: rest => match pstep e a s with Some s' => prun e rest s' | None => None end
  end.

End Par.
Arguments pst : clear implicits.
Arguments slot : clear implicits.
