(** Model of EquivalenceCheckingManager::run / checkSequential / checkSymbolic / reset.
    No proofs in this file.

    Environment abstraction.  Everything the flow observes but does not compute itself is in
    [env]: what an *uninterrupted* run of each checker yields, the stimuli generator, whether
    the circuits are empty / variable free / transformable to ZX, which constructors throw, and
    when the timeout thread fires.  Time is counted in observations ("ticks"): each read of the
    manager's [done] flag and each checker run is one tick; [e_fire = Some t] means that
    the timeout thread executes [setAndSignalDone] just before tick [t].  A checker run at
    tick [t] is interrupted iff the timer has fired by then and [e_notice t] says the checker
    saw its flag in time (a run that is about to end may complete although the flag is set).

    Not modelled: wall-clock durations, text written to std::clog, the JSON documents of the checkers. *)
From Coq Require Import String List Bool NArith QArith Arith.
From Verif Require Import Criterion Config.
Import ListNotations.

(** verdicts of an uninterrupted matrix-DD comparison:
    src/checker/dd/DDAlternatingChecker.cpp:99-122, DDEquivalenceChecker.cpp:29-102 (matrix) *)
Inductive mverdict := MEquivalent | MGlobalPhase | MNotEquivalent.
(** verdicts of an uninterrupted vector-DD comparison: DDEquivalenceChecker.cpp:29-102 (vector) *)
Inductive sverdict := SEquivalent | SPhase | SNotEquivalent.
(** outcome of an uninterrupted ZX reduction: ZXChecker.cpp:60-113 *)
Inductive zverdict := ZEquivalent | ZGlobalPhase | ZFail.

Definition mcrit (v : mverdict) : criterion :=
  match v with MEquivalent => Equivalent | MGlobalPhase => EquivalentUpToGlobalPhase
             | MNotEquivalent => NotEquivalent end.
Definition scrit (v : sverdict) : criterion :=
  match v with SEquivalent => Equivalent | SPhase => EquivalentUpToPhase
             | SNotEquivalent => NotEquivalent end.
(** ZXChecker.cpp:101-113 without interruption; [anc] is the member [ancilla] *)
Definition zcrit (anc : bool) (v : zverdict) : criterion :=
  match v with ZEquivalent => Equivalent | ZGlobalPhase => EquivalentUpToGlobalPhase
             | ZFail => if anc then NoInformation else ProbablyNotEquivalent end.

Inductive kind := KSim | KAlt | KCon | KZX.

Section Flow.
Context {Stim Gen : Type}.

Record env := mkEnv {
  e_empty : bool;           (* qc1.empty() && qc2.empty() *)
  e_varfree : bool;         (* qc1.isVariableFree() && qc2.isVariableFree() *)
  e_transformable : bool;   (* both circuits transformableToZX *)
  e_ancilla : bool;         (* ZXChecker::ancilla *)
  e_canHandle : bool;       (* DDAlternatingChecker::canHandle *)
  e_profile_ok : bool;      (* the gate cost profile file can be opened *)
  e_zx_perm_ok : bool;      (* ZX constructor's permutation look-ups succeed *)
  e_ndebug : bool;          (* asserts are compiled out *)
  e_alt : mverdict;
  e_con : mverdict;
  e_sim : Stim -> sverdict;
  e_zx : zverdict;
  e_gen : Gen -> option (Stim * Gen);   (* None: the generator does not return *)
  e_clear : Gen -> Gen;                 (* StateGenerator::clear *)
  e_fire : option nat;
  e_notice : nat -> bool }.

(** EquivalenceChecker.hpp:44-56 (the part the manager sees) *)
Record checker := mkChecker { k_kind : kind; k_eq : criterion; k_stim : option Stim }.

(** EquivalenceCheckingManager.hpp:38-68; names, sizes, times of the checks omitted *)
Record results := mkResults {
  r_eq : criterion; r_started : N; r_performed : N;
  r_cexIn : option Stim;      (* cexInput; None = empty vector *)
  r_cexOut : option Stim;     (* cexOutput1/2: Some s = outputs of both circuits on s *)
  r_preproc : Q }.

(** EquivalenceCheckingManager.hpp:252-265 *)
Record mgr := mkMgr {
  m_cfg : config; m_gen : Gen; m_done : bool; m_checkers : list checker; m_res : results }.

Definition empty_results : results := mkResults NoInformation 0 0 None None 0.

(** EquivalenceCheckingManager.hpp:104-108 *)
Definition reset (e : env) (m : mgr) : mgr :=
  mkMgr (m_cfg m) (e_clear e (m_gen m)) (m_done m) [] empty_results.

(** manager right after construction, EquivalenceCheckingManager.cpp:354-410 (see Prep.v for
    the circuits); [pp] is the measured preprocessing time *)
Definition fresh (c : config) (g : Gen) (pp : Q) : mgr :=
  mkMgr c g false [] (mkResults NoInformation 0 0 None None pp).

Definition set_eq (q : criterion) (r : results) : results :=
  mkResults q (r_started r) (r_performed r) (r_cexIn r) (r_cexOut r) (r_preproc r).
Definition set_counts (s p : N) (r : results) : results :=
  mkResults (r_eq r) s p (r_cexIn r) (r_cexOut r) (r_preproc r).
Definition set_cex (i o : option Stim) (r : results) : results :=
  mkResults (r_eq r) (r_started r) (r_performed r) i o (r_preproc r).

(** result of a member function: normal return, exception to the caller, std::terminate,
    non-termination (or not enough fuel), failed assertion *)
Inductive outcome (A : Type) :=
| Returned (a : A) | Thrown | Terminated | Diverged | AssertFailed.
Arguments Returned {A} _. Arguments Thrown {A}. Arguments Terminated {A}.
Arguments Diverged {A}. Arguments AssertFailed {A}.

Definition hasTimeout (c : config) : bool := Qpos (timeout (exec c)).

(** has the timeout thread (cpp:417-430, 852-865) run setAndSignalDone before tick [t]? *)
Definition fired (e : env) (c : config) (t : nat) : bool :=
  hasTimeout c && match e_fire e with None => false | Some f => Nat.leb f t end.
(** is a checker run at tick [t] cut short? *)
Definition interrupted (e : env) (c : config) (t : nat) : bool := fired e c t && e_notice e t.

(** leaving the function by an exception or an early [return] while the timeout thread has not been
    joined destroys a joinable std::thread, i.e. calls std::terminate *)
Definition leave_by_exception {A} (c : config) : outcome A :=
  if hasTimeout c then Terminated else Thrown.

(** constructors that throw: DDEquivalenceChecker.cpp:226-269 (Lookahead for vectors, LUT file),
    DDConstructionChecker.hpp:24-35 *)
Definition scheme_ctor_throws (e : env) (c : config) (s : scheme) : bool :=
  scheme_eqb s GateCost && negb (String.eqb (profile (app c)) "") && negb (e_profile_ok e).
Definition ctor_throws (e : env) (c : config) (k : kind) : bool :=
  match k with
  | KSim => scheme_eqb (simulationScheme (app c)) Lookahead
            || scheme_ctor_throws e c (simulationScheme (app c))
  | KCon => scheme_eqb (constructionScheme (app c)) Lookahead
            || scheme_ctor_throws e c (constructionScheme (app c))
  | KAlt => scheme_ctor_throws e c (alternatingScheme (app c))
  | KZX => false
  end.

(** hpp:351-353 *)
Definition simulationsFinished (c : config) (r : results) : bool :=
  N.eqb (r_performed r) (maxSims (sim c)).

(** The simulation loop, cpp:437-465.  [q] is the simulation checker's verdict member, [s] its
    current stimulus. *)
Inductive loop_exit :=
| LDone (t : nat) (q : criterion) (s : option Stim) (r : results) (g : Gen)   (* left normally / break *)
| LNoInfo (q : criterion) (s : option Stim) (r : results) (g : Gen)           (* return at line 453 *)
| LDiverged.

Fixpoint simLoop (fuel : nat) (e : env) (c : config) (t : nat) (q : criterion) (s : option Stim)
    (r : results) (g : Gen) : loop_exit :=
  match fuel with
  | O => LDiverged
  | S fuel' =>
    if simulationsFinished c r then LDone t q s r g else
    if fired e c t then LDone (S t) q s r g else
    match e_gen e g with
    | None => LDiverged
    | Some (st, g') =>
      let r1 := set_counts (r_started r + 1) (r_performed r) r in
      let q' := if interrupted e c (S t) then q else scrit (e_sim e st) in
      let r2 := set_counts (r_started r1) (r_performed r1 + 1) r1 in
      match q' with
      | NoInformation => LNoInfo q' (Some st) r2 g'
      | NotEquivalent => LDone (S (S t)) q' (Some st) (set_eq NotEquivalent r2) g'
      | _ => simLoop fuel' e c (S (S t)) q' (Some st) (set_eq ProbablyEquivalent r2) g'
      end
    end
  end.

(** local state threaded through checkSequential *)
Record st := mkSt { s_t : nat; s_done : bool; s_chk : list checker; s_res : results; s_gen : Gen }.

Definition reads_done (e : env) (c : config) (s : st) : bool := s_done s || fired e c (s_t s).
Definition tick (s : st) : st := mkSt (S (s_t s)) (s_done s) (s_chk s) (s_res s) (s_gen s).
Definition add_checker (k : checker) (s : st) : st :=
  mkSt (s_t s) (s_done s) (s_chk s ++ [k]) (s_res s) (s_gen s).
Definition with_res (r : results) (s : st) : st := mkSt (s_t s) (s_done s) (s_chk s) r (s_gen s).
Definition set_done (s : st) : st := mkSt (s_t s) true (s_chk s) (s_res s) (s_gen s).

(** cpp:432-489 *)
Definition seqSim (fuel : nat) (e : env) (c : config) (s : st) : outcome st + outcome st :=
  (* inl: continue with the rest of the function; inr: the function is left *)
  if negb (runSimulationChecker (exec c)) then inl (Returned s) else
  if ctor_throws e c KSim then inr (leave_by_exception c) else
  match simLoop fuel e c (s_t s) NoInformation None (s_res s) (s_gen s) with
  | LDiverged => inr Diverged
  | LNoInfo q stm r g =>
      (* [return] at line 453 *)
      inr (if hasTimeout c then Terminated
           else Returned (mkSt (s_t s) (s_done s) (s_chk s ++ [mkChecker KSim q stm]) r g))
  | LDone t q stm r g =>
      let r' :=
        match r_eq r with
        | NotEquivalent =>
            set_cex (if storeCEXinput (sim c) then stm else r_cexIn r)
                    (if storeCEXoutput (sim c) then stm else r_cexOut r) r
        | _ => r
        end in
      let d := s_done s || criterion_eqb (r_eq r) NotEquivalent ||
               (onlySimulationCheckerConfigured c && simulationsFinished c r) in
      inl (Returned (mkSt t d (s_chk s ++ [mkChecker KSim q stm]) r' g))
  end.

(** cpp:491-507 and, identically, 509-525: [k] is KAlt or KCon *)
Definition seqExact (k : kind) (enabled : bool) (v : mverdict) (run_throws : bool)
    (e : env) (c : config) (s : st) : outcome st + outcome st :=
  if negb enabled then inl (Returned s) else
  if reads_done e c s then inl (Returned (tick s)) else
  let s1 := tick s in
  if ctor_throws e c k then inr (leave_by_exception c) else
  if reads_done e c s1 then inl (Returned (add_checker (mkChecker k NoInformation None) (tick s1))) else
  let s2 := tick s1 in
  if run_throws then inr (leave_by_exception c) else
  let result := if interrupted e c (s_t s2) then NoInformation else mcrit v in
  let s3 := tick (add_checker (mkChecker k result None) s2) in
  match result with
  | NoInformation => inl (Returned s3)
  | _ => inl (Returned (set_done (with_res (set_eq result (s_res s3)) s3)))
  end.

(** cpp:527-575 *)
Definition seqZX (e : env) (c : config) (s : st) : outcome st + outcome st :=
  if negb (runZXChecker (exec c)) then inl (Returned s) else
  if reads_done e c s then inl (Returned (tick s)) else
  let s1 := tick s in
  if e_transformable e then
    if negb (e_zx_perm_ok e) then inr Terminated (* exception inside a noexcept constructor *) else
    if reads_done e c s1 then inl (Returned (add_checker (mkChecker KZX NoInformation None) (tick s1))) else
    let s2 := tick s1 in
    let result := if interrupted e c (s_t s2) then NoInformation else zcrit (e_ancilla e) (e_zx e) in
    let s3 := set_done (tick (add_checker (mkChecker KZX result None) s2)) in
    let r := s_res s3 in
    match result with
    | Equivalent | EquivalentUpToGlobalPhase => inl (Returned (with_res (set_eq result r) s3))
    | ProbablyNotEquivalent =>
        if criterion_eqb (r_eq r) ProbablyEquivalent
        then inl (Returned (with_res (set_eq NoInformation r) s3))
        else inl (Returned (with_res (set_eq result r) s3))
    | _ =>
        if criterion_eqb (r_eq r) NoInformation && negb (onlyZXCheckerConfigured c) && negb (e_ndebug e)
        then inr AssertFailed   (* line 557 *)
        else inl (Returned s3)
    end
  else if onlyZXCheckerConfigured c then
    inl (Returned (mkSt (s_t s1) (s_done s1) [] (set_eq NoInformation (s_res s1)) (s_gen s1)))
  else inl (Returned s1).

Definition bind (x : outcome st + outcome st) (f : st -> outcome st + outcome st)
  : outcome st + outcome st :=
  match x with inl (Returned s) => f s | other => other end.

Definition finish_flow (c : config) (x : outcome st + outcome st) : outcome mgr :=
  match x with
  | inl (Returned s) | inr (Returned s) =>
      Returned (mkMgr c (s_gen s) (s_done s) (s_chk s) (s_res s))
  | inl Thrown | inr Thrown => Thrown
  | inl Terminated | inr Terminated => Terminated
  | inl Diverged | inr Diverged => Diverged
  | inl AssertFailed | inr AssertFailed => AssertFailed
  end.

(** cpp:412-584.  [fuel] bounds the number of loop iterations the model follows. *)
Definition checkSequential (fuel : nat) (e : env) (m : mgr) : outcome mgr :=
  let c := m_cfg m in
  finish_flow c
    (bind (seqSim fuel e c (mkSt 0 (m_done m) (m_checkers m) (m_res m) (m_gen m))) (fun s =>
     bind (seqExact KAlt (runAlternatingChecker (exec c)) (e_alt e) (negb (e_canHandle e)) e c s) (fun s =>
     bind (seqExact KCon (runConstructionChecker (exec c)) (e_con e) false e c s) (fun s =>
     seqZX e c s)))).

(** cpp:848-895 *)
Definition checkSymbolic (e : env) (m : mgr) : outcome mgr :=
  let c := m_cfg m in
  let s := mkSt 0 (m_done m) (m_checkers m) (m_res m) (m_gen m) in
  finish_flow c
    (if reads_done e c s then inl (Returned (tick s)) else
     let s1 := tick s in
     if e_transformable e then
       if negb (e_zx_perm_ok e) then inr Terminated else
       if reads_done e c s1 then inl (Returned (add_checker (mkChecker KZX NoInformation None) (tick s1))) else
       let s2 := tick s1 in
       let result := if interrupted e c (s_t s2) then NoInformation else zcrit (e_ancilla e) (e_zx e) in
       let s3 := tick (add_checker (mkChecker KZX result None) s2) in
       inl (Returned (set_done (with_res (set_eq result (s_res s3)) s3)))
     else
       (* [return] at line 886 with the timeout thread not joined *)
       if hasTimeout c then inr Terminated
       else inr (Returned (mkSt (s_t s1) (s_done s1) [] (set_eq NoInformation (s_res s1)) (s_gen s1)))).

(** which flow run() takes, cpp:314-335 *)
Inductive flow := FNothing | FTrivial | FSequential | FParallel | FSymbolic.
Definition choose_flow (e : env) (c : config) : flow :=
  if negb (anythingToExecute c) then FNothing else
  if e_empty e then FTrivial else
  if e_varfree e then
    if negb (parallel (exec c)) || N.leb (nthreads (exec c)) 1 || onlySingleTask c
    then FSequential else FParallel
  else FSymbolic.

(** beginning of run(), cpp:293-309 *)
Definition start_run (m : mgr) : mgr :=
  mkMgr (m_cfg m) (m_gen m) false (m_checkers m) (set_eq NoInformation (m_res m)).

(** cpp:293-352; the parallel flow is the subject of ParFlow.v and is a parameter here.
    The JSON collection (337-341) dereferences every checker; in the sequential and symbolic
    flows all of them exist. *)
Definition run (fuel : nat) (par_flow : env -> mgr -> outcome mgr) (e : env) (m : mgr) : outcome mgr :=
  let m0 := start_run m in
  match choose_flow e (m_cfg m) with
  | FNothing => Returned m0
  | FTrivial => Returned (mkMgr (m_cfg m0) (m_gen m0) true (m_checkers m0) (set_eq Equivalent (m_res m0)))
  | FSequential => checkSequential fuel e m0
  | FParallel => par_flow e m0
  | FSymbolic => checkSymbolic e m0
  end.

End Flow.

Arguments Returned {A} _. Arguments Thrown {A}. Arguments Terminated {A}.
Arguments Diverged {A}. Arguments AssertFailed {A}.
Arguments env : clear implicits.
Arguments mgr : clear implicits.
Arguments results : clear implicits.
Arguments checker : clear implicits.
