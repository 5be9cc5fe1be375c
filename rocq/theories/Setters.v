(** Model of the setters of the manager and of the choice of the application scheme. No proofs in this file.

    Sources: include/EquivalenceCheckingManager.hpp:117-249, src/checker/dd/DDEquivalenceChecker.cpp:226-269.
    The setters that apply an optimisation are in Passes.v; the effects of setTolerance on the DD package and of setSeed on the generator
    (StateGen.v) are left out. [F] is the type of cost functions. *)
From Coq Require Import String List Bool NArith QArith.
From Verif Require Import Criterion Config.
Import ListNotations.

Section Setters.
Variable F : Type.

(** the configuration with the cost function, include/Configuration.hpp:50-61 *)
Record mcfg := mkMcfg { g_cfg : config; g_cost : F }.
Definition on_exec (f : execution -> execution) (m : mcfg) : mcfg := mkMcfg (upd_exec f (g_cfg m)) (g_cost m).
Definition on_app (f : application -> application) (m : mcfg) : mcfg := mkMcfg (upd_app f (g_cfg m)) (g_cost m).
Definition on_func (f : functionality -> functionality) (m : mcfg) : mcfg := mkMcfg (upd_func f (g_cfg m)) (g_cost m).
Definition on_sim (f : simulation -> simulation) (m : mcfg) : mcfg := mkMcfg (upd_sim f (g_cfg m)) (g_cost m).

(** hpp:119-122 *)
Definition m_setTolerance (t : Q) : mcfg -> mcfg := on_exec (fun e =>
  mkExecution t (parallel e) (nthreads e) (timeout e) (runConstructionChecker e) (runSimulationChecker e) (runAlternatingChecker e) (runZXChecker e)).
(** hpp:123-131 *)
Definition m_setParallel (b : bool) (m : mcfg) : mcfg := mkMcfg (setParallel b (g_cfg m)) (g_cost m).
Definition m_setNThreads (n : N) (m : mcfg) : mcfg := mkMcfg (setNThreads n (g_cfg m)) (g_cost m).
Definition m_setTimeout (t : Q) (m : mcfg) : mcfg := mkMcfg (setTimeout t (g_cfg m)) (g_cost m).
(** hpp:132-148 *)
Definition m_setConstructionChecker (b : bool) (m : mcfg) : mcfg := mkMcfg (setConstructionChecker b (g_cfg m)) (g_cost m).
Definition m_setSimulationChecker (b : bool) (m : mcfg) : mcfg := mkMcfg (setSimulationChecker b (g_cfg m)) (g_cost m).
Definition m_setAlternatingChecker (b : bool) (m : mcfg) : mcfg := mkMcfg (setAlternatingChecker b (g_cfg m)) (g_cost m).
Definition m_setZXChecker (b : bool) (m : mcfg) : mcfg := mkMcfg (setZXChecker b (g_cfg m)) (g_cost m).
Definition m_disableAllCheckers (m : mcfg) : mcfg := mkMcfg (disableAllCheckers (g_cfg m)) (g_cost m).
(** hpp:160-171 *)
Definition m_setConstructionScheme (s : scheme) : mcfg -> mcfg := on_app (fun a => mkApplication s (simulationScheme a) (alternatingScheme a) (profile a)).
Definition m_setSimulationScheme (s : scheme) : mcfg -> mcfg := on_app (fun a => mkApplication (constructionScheme a) s (alternatingScheme a) (profile a)).
Definition m_setAlternatingScheme (s : scheme) : mcfg -> mcfg := on_app (fun a => mkApplication (constructionScheme a) (simulationScheme a) s (profile a)).
(** hpp:172-176 *)
Definition m_setApplicationScheme (s : scheme) (m : mcfg) : mcfg := m_setAlternatingScheme s (m_setSimulationScheme s (m_setConstructionScheme s m)).
Definition set_profile (f : string) : mcfg -> mcfg := on_app (fun a => mkApplication (constructionScheme a) (simulationScheme a) (alternatingScheme a) f).
(** hpp:177-191 *)
Definition m_setConstructionProfile (f : string) (m : mcfg) : mcfg := set_profile f (m_setConstructionScheme GateCost m).
Definition m_setSimulationProfile (f : string) (m : mcfg) : mcfg := set_profile f (m_setSimulationScheme GateCost m).
Definition m_setAlternatingProfile (f : string) (m : mcfg) : mcfg := set_profile f (m_setAlternatingScheme GateCost m).
(** hpp:192-196 *)
Definition m_setGateCostProfile (f : string) (m : mcfg) : mcfg := m_setAlternatingProfile f (m_setSimulationProfile f (m_setConstructionProfile f m)).
Definition set_cost (f : F) (m : mcfg) : mcfg := mkMcfg (g_cfg m) f.
(** hpp:197-216 *)
Definition m_setConstructionCost (f : F) (m : mcfg) : mcfg := set_cost f (m_setConstructionScheme GateCost m).
Definition m_setSimulationCost (f : F) (m : mcfg) : mcfg := set_cost f (m_setSimulationScheme GateCost m).
Definition m_setAlternatingCost (f : F) (m : mcfg) : mcfg := set_cost f (m_setAlternatingScheme GateCost m).
Definition m_setGateCostFunction (f : F) (m : mcfg) : mcfg := m_setAlternatingCost f (m_setSimulationCost f (m_setConstructionCost f m)).
(** hpp:219-224 *)
Definition m_setTraceThreshold (t : Q) : mcfg -> mcfg := on_func (fun f => mkFunctionality t (checkPartialEquivalence f)).
Definition m_setCheckPartialEquivalence (b : bool) : mcfg -> mcfg := on_func (fun f => mkFunctionality (traceThreshold f) b).
(** hpp:228-249 *)
Definition m_setFidelityThreshold (t : Q) : mcfg -> mcfg := on_sim (fun s => mkSimulation t (maxSims s) (stateTyp s) (seed s) (storeCEXinput s) (storeCEXoutput s)).
Definition m_setMaxSims (n : N) (m : mcfg) : mcfg := mkMcfg (setMaxSims n (g_cfg m)) (g_cost m).
Definition m_setStateType (t : stateType) (m : mcfg) : mcfg := mkMcfg (setStateType t (g_cfg m)) (g_cost m).
Definition m_setSeed (n : N) : mcfg -> mcfg := on_sim (fun s => mkSimulation (fidelityThreshold s) (maxSims s) (stateTyp s) n (storeCEXinput s) (storeCEXoutput s)).
Definition m_storeCEXinput (b : bool) : mcfg -> mcfg := on_sim (fun s => mkSimulation (fidelityThreshold s) (maxSims s) (stateTyp s) (seed s) b (storeCEXoutput s)).
Definition m_storeCEXoutput (b : bool) : mcfg -> mcfg := on_sim (fun s => mkSimulation (fidelityThreshold s) (maxSims s) (stateTyp s) (seed s) (storeCEXinput s) b).

(** a call of a setter *)
Inductive setter :=
| SetTolerance (t : Q) | SetParallel (b : bool) | SetNThreads (n : N) | SetTimeout (t : Q)
| SetConstructionChecker (b : bool) | SetSimulationChecker (b : bool) | SetAlternatingChecker (b : bool) | SetZXChecker (b : bool) | DisableAllCheckers
| SetConstructionApplicationScheme (s : scheme) | SetSimulationApplicationScheme (s : scheme) | SetAlternatingApplicationScheme (s : scheme)
| SetApplicationScheme (s : scheme)
| SetConstructionGateCostProfile (f : string) | SetSimulationGateCostProfile (f : string) | SetAlternatingGateCostProfile (f : string) | SetGateCostProfile (f : string)
| SetConstructionGateCostFunction (f : F) | SetSimulationGateCostFunction (f : F) | SetAlternatingGateCostFunction (f : F) | SetGateCostFunction (f : F)
| SetTraceThreshold (t : Q) | SetCheckPartialEquivalence (b : bool)
| SetFidelityThreshold (t : Q) | SetMaxSims (n : N) | SetStateType (t : stateType) | SetSeed (n : N) | StoreCEXinput (b : bool) | StoreCEXoutput (b : bool).
Definition call (x : setter) : mcfg -> mcfg :=
  match x with
  | SetTolerance t => m_setTolerance t | SetParallel b => m_setParallel b | SetNThreads n => m_setNThreads n | SetTimeout t => m_setTimeout t
  | SetConstructionChecker b => m_setConstructionChecker b | SetSimulationChecker b => m_setSimulationChecker b
  | SetAlternatingChecker b => m_setAlternatingChecker b | SetZXChecker b => m_setZXChecker b | DisableAllCheckers => m_disableAllCheckers
  | SetConstructionApplicationScheme s => m_setConstructionScheme s | SetSimulationApplicationScheme s => m_setSimulationScheme s
  | SetAlternatingApplicationScheme s => m_setAlternatingScheme s | SetApplicationScheme s => m_setApplicationScheme s
  | SetConstructionGateCostProfile f => m_setConstructionProfile f | SetSimulationGateCostProfile f => m_setSimulationProfile f
  | SetAlternatingGateCostProfile f => m_setAlternatingProfile f | SetGateCostProfile f => m_setGateCostProfile f
  | SetConstructionGateCostFunction f => m_setConstructionCost f | SetSimulationGateCostFunction f => m_setSimulationCost f
  | SetAlternatingGateCostFunction f => m_setAlternatingCost f | SetGateCostFunction f => m_setGateCostFunction f
  | SetTraceThreshold t => m_setTraceThreshold t | SetCheckPartialEquivalence b => m_setCheckPartialEquivalence b
  | SetFidelityThreshold t => m_setFidelityThreshold t | SetMaxSims n => m_setMaxSims n | SetStateType t => m_setStateType t | SetSeed n => m_setSeed n
  | StoreCEXinput b => m_storeCEXinput b | StoreCEXoutput b => m_storeCEXoutput b
  end.
Definition calls (l : list setter) (m : mcfg) : mcfg := fold_left (fun m x => call x m) l m.

(** DDEquivalenceChecker.cpp:226-269: the scheme object that a checker with scheme [s] constructs; [matrices]: it works on matrices.
    [None]: an exception *)
Inductive chosen := CSequential | COneToOne | CLookahead | CProfile (f : string) (fuse : bool) | CCostFunction (f : F) (fuse : bool) | CProportional (fuse : bool).
Definition initializeApplicationScheme (matrices : bool) (s : scheme) (m : mcfg) : option chosen :=
  let fuse := fuseSingleQubitGates (opts (g_cfg m)) in
  match s with
  | Sequential => Some CSequential
  | OneToOne => Some COneToOne
  | Lookahead => if matrices then Some CLookahead else None
  | GateCost => if negb (String.eqb (profile (app (g_cfg m))) "") then Some (CProfile (profile (app (g_cfg m))) fuse) else Some (CCostFunction (g_cost m) fuse)
  | Proportional => Some (CProportional fuse)
  end.
End Setters.
Arguments mkMcfg {F}. Arguments g_cfg {F}. Arguments g_cost {F}. Arguments call {F}. Arguments calls {F}. Arguments initializeApplicationScheme {F}.
Arguments SetTolerance {F}. Arguments SetParallel {F}. Arguments SetNThreads {F}. Arguments SetTimeout {F}. Arguments SetConstructionChecker {F}.
Arguments SetSimulationChecker {F}. Arguments SetAlternatingChecker {F}. Arguments SetZXChecker {F}. Arguments DisableAllCheckers {F}.
Arguments SetConstructionApplicationScheme {F}. Arguments SetSimulationApplicationScheme {F}. Arguments SetAlternatingApplicationScheme {F}.
Arguments SetApplicationScheme {F}. Arguments SetConstructionGateCostProfile {F}. Arguments SetSimulationGateCostProfile {F}.
Arguments SetAlternatingGateCostProfile {F}. Arguments SetGateCostProfile {F}. Arguments SetConstructionGateCostFunction {F}.
Arguments SetSimulationGateCostFunction {F}. Arguments SetAlternatingGateCostFunction {F}. Arguments SetGateCostFunction {F}.
Arguments SetTraceThreshold {F}. Arguments SetCheckPartialEquivalence {F}. Arguments SetFidelityThreshold {F}. Arguments SetMaxSims {F}.
Arguments SetStateType {F}. Arguments SetSeed {F}. Arguments StoreCEXinput {F}. Arguments StoreCEXoutput {F}.
Arguments CSequential {F}. Arguments COneToOne {F}. Arguments CLookahead {F}. Arguments CProfile {F}. Arguments CCostFunction {F}. Arguments CProportional {F}.
