(** The memory accesses of the parallel flow: every step of ParFlow.v together with the events (Trace.v) it consists of.
    No proofs in this file.

    Sources: src/EquivalenceCheckingManager.cpp:293-352, 586-846; include/EquivalenceCheckingManager.hpp:255-267, 288-353;
    include/checker/EquivalenceChecker.hpp:39-60.

    Simplifications:
    - one step of ParFlow.v is executed without interruption; its events are listed in program order, except that the writes to
      [results] and the reads of the finished checker (cpp:713-727) precede [done = true] (all are actions of the main thread);
    - the two mutexes of the queue are one here ([mq]); the queue's own accesses are the subject of QueueTrace.v;
    - everything a checker owns (its decision-diagram package, its copies of the circuits' tasks, its verdict) is one location;
      the checker's atomic flag is another; the standard streams, the heap and process-wide state of mqt-core are not modelled. *)
From Coq Require Import String List Bool NArith QArith Arith.
From Verif Require Import Criterion Config SeqFlow ParFlow Trace.
Import ListNotations.
Local Open Scope list_scope.

Inductive loc :=
| LCircuits            (* qc1, qc2, hpp:253-254 *)
| LConfig              (* configuration, hpp:256 *)
| LGen                 (* stateGenerator, hpp:258 *)
| LDone                (* the plain bool done, hpp:261 *)
| LSlot (i : nat)      (* the unique_ptr checkers[i], hpp:264 *)
| LChecker (i : nat)   (* the object checkers[i] points to, except for its flag *)
| LFlag (i : nat)      (* the flag of that object, a std::atomic, EquivalenceChecker.hpp:59 *)
| LResults             (* results, hpp:266 *)
| LQueue.              (* the queue, cpp:648 *)

(** mutexes: those of the queue, ThreadSafeQueue.hpp:59-61, and stateGeneratorMutex, hpp:259 *)
Definition mq : nat := 0.
Definition mg : nat := 1.
(** the thread that calls run() is number 0; the workers are numbered in the order in which they are started *)
Definition main_thread : nat := 0%nat.

Section Events.
Context {Stim Gen : Type}.
Notation env := (env Stim Gen).
Notation pst := (pst Stim Gen).

(** the state of the flow and of the futures: [t_tid i] is the number of the thread that serves slot [i],
    [t_fut i] says that futures[i] still has its shared state, [t_next] is the number of the next thread *)
Record tst := mkT { t_st : pst; t_tid : nat -> nat; t_fut : nat -> bool; t_next : nat }.

Definition fset {A} (f : nat -> A) (k : nat) (x : A) : nat -> A := fun i => if Nat.eqb i k then x else f i.
Definition as_thread (t : nat) (l : list (what loc)) : trace loc := map (pair t) l.
Definition rd (l : loc) : what loc := Acc Rd l.
Definition wr (l : loc) : what loc := Acc Wr l.

(** constructor and lines 293-309, 606-650, before any thread is started; the last access is setAndSignalDone at line 632 *)
Definition init_events (e : env) (c : config) : trace loc :=
  as_thread main_thread
    ([wr LDone; wr LCircuits; wr LGen; wr LResults; wr LConfig] ++
     map (fun i => wr (LSlot i)) (seq 0 (N.to_nat (effectiveThreads e c))) ++
     [wr LQueue] ++ (if zx_alone_unsupported e c then [wr LDone] else [])).
Definition t_init (e : env) (c : config) (g : Gen) (pp : Q) : tst :=
  mkT (par_init e c g pp) (fun _ => 0%nat) (fun _ => false) 1%nat.

(** asyncRunChecker(i, queue): starts a thread, hpp:326; the future is stored *)
Definition launch (i : nat) (T : tst) : tst :=
  mkT (t_st T) (fset (t_tid T) i (t_next T)) (fset (t_fut T) i true) (S (t_next T)).
(** futures.at(i).get(), cpp:702 *)
Definition taken (i : nat) (T : tst) : tst := mkT (t_st T) (t_tid T) (fset (t_fut T) i false) (t_next T).
(** the futures' destructors at the end of the function *)
Definition all_taken (T : tst) : tst := mkT (t_st T) (t_tid T) (fun _ => false) (t_next T).
Definition waits (n : nat) (T : tst) : list (what loc) :=
  map (fun i => Join (t_tid T i)) (filter (t_fut T) (seq 0 n)).
(** run(), cpp:337-341: every checker reports *)
Definition reports (s : pst) : list (what loc) :=
  concat (map (fun p => rd (LSlot (fst p)) :: (if has_chk (snd p) then [rd (LChecker (fst p))] else []))
              (combine (seq 0 (length (p_slots s))) (p_slots s))).
Definition popping : list (what loc) := [Lock mq; rd LQueue; wr LQueue; Unlock mq].

(** the accesses of [main_step] *)
Definition main_events (T : tst) : list (what loc) * tst :=
  let s := t_st T in
  match p_main s with
  | MLaunch [] => ([rd LDone], T)                                             (* 684 *)
  | MLaunch (k :: _) =>                                                       (* 652-681 *)
      ([rd LConfig] ++ (match k with KAlt => [] | _ => [rd LDone] end) ++ [Fork (t_next T)] ++
       (match k with KSim => [wr LResults] | _ => [] end),
       launch (p_next s) T)
  | MLoop =>
      match p_queue s with
      | [] => ([], T)
      | i :: _ =>
          match nth_error (p_slots s) i with
          | None => (popping, T)
          | Some x =>
              let got := popping ++ [Join (t_tid T i)] in                     (* 686-702 *)
              if sl_exn x then (got, taken i T)
              else match sl_chk x with
                   | None => (got ++ [rd (LSlot i)], taken i T)               (* 705-706 *)
                   | Some k =>
                       let all := got ++ [rd (LSlot i); rd (LChecker i); rd LConfig; rd LResults; wr LResults] in
                       match handle (p_cfg s) (p_res s) (k_kind k) (k_eq k) (k_stim k) with
                       | Stop _ => (all ++ [wr LDone], taken i T)             (* hpp:289 *)
                       | Continue _ => (all ++ [rd LDone], taken i T)         (* 684 *)
                       | Restart _ =>                                         (* 824-828, 684 *)
                           (all ++ [Fork (t_next T); wr LResults; rd LDone], launch i (taken i T))
                       end
                   end
          end
      end
  | MSignal j =>                                                              (* hpp:290-294 *)
      match nth_error (p_slots s) j with
      | None => ([], T)
      | Some x => (rd (LSlot j) :: (if has_chk x then [Acc AtomicWr (LFlag j)] else []), T)
      end
  | MEnd => (waits (length (p_slots s)) T ++ reports s ++ [wr LResults], all_taken T)
  | MUnwind => (waits (length (p_slots s)) T, all_taken T)
  | _ => ([], T)
  end.

(** the wait for the queue ends by the deadline, cpp:686-697, hpp:289 *)
Definition timeout_events : list (what loc) := [Lock mq; rd LQueue; Unlock mq; wr LDone].

(** the accesses of [worker_step] and [abort_step], hpp:326-347 *)
Definition running (i : nat) : list (what loc) :=
  [rd (LSlot i); Acc AtomicRd (LFlag i); rd LCircuits; rd (LChecker i); wr (LChecker i)].
Definition worker_events (e : env) (i : nat) (s : pst) : list (what loc) :=
  match nth_error (p_slots s) i with
  | None => []
  | Some x =>
      match sl_w x with
      | WIdle => []
      | WStart k =>
          match sl_chk x with
          | Some _ => [rd (LSlot i)]
          | None =>
              if ctor_throws e (p_cfg s) k || (match k with KZX => negb (e_zx_perm_ok e) | _ => false end)
              then [rd (LSlot i); rd LCircuits; rd LConfig]
              else [rd (LSlot i); rd LCircuits; rd LConfig; wr (LChecker i); wr (LFlag i); wr (LSlot i)]
          end
      | WDraw => [rd (LSlot i); Lock mg; rd LGen; wr LGen; wr (LChecker i); Unlock mg]
      | WRead => [rd LDone]
      | WRun => running i
      | WPush => popping
      end
  end.

Definition step_events (e : env) (a : action) (T : tst) : trace loc * tst :=
  match a with
  | AMain => let '(l, T') := main_events T in (as_thread main_thread l, T')
  | ATimeout => (as_thread main_thread timeout_events, T)
  | AWorker i => (as_thread (t_tid T i) (worker_events e i (t_st T)), T)
  | AAbort i => (as_thread (t_tid T i) (running i), T)
  end.
Definition with_st (s : pst) (T : tst) : tst := mkT s (t_tid T) (t_fut T) (t_next T).

(** executing a schedule, with the trace it produces *)
Fixpoint trun (e : env) (acts : list action) (T : tst) : option (trace loc * tst) :=
  match acts with
  | [] => Some ([], T)
  | a :: rest =>
      match pstep e a (t_st T) with
      | None => None
      | Some s' =>
          let '(l, T') := step_events e a T in
          match trun e rest (with_st s' T') with
          | None => None
          | Some (l', T'') => Some (l ++ l', T'')
          end
      end
  end.
End Events.
Arguments tst : clear implicits.
