(** What each setter of the manager is documented to change: a table. Definitions only. *)
From Coq Require Import String List Bool NArith QArith.
From Verif Require Import Criterion Config Setters.
Import ListNotations.

Section Spec.
Variable F : Type.
(** the settings *)
Inductive field :=
| FTolerance | FParallel | FNThreads | FTimeout | FRunConstruction | FRunSimulation | FRunAlternating | FRunZX
| FConstructionScheme | FSimulationScheme | FAlternatingScheme | FProfile | FCostFunction | FTraceThreshold | FPartialEquivalence
| FFidelityThreshold | FMaxSims | FStateType | FSeed | FStoreInput | FStoreOutput | FOptimizations | FParameterized.
Inductive value := VBool (b : bool) | VNum (n : N) | VReal (q : Q) | VStr (s : string) | VScheme (s : scheme) | VState (t : stateType) | VCost (f : F)
| VOpts (o : optimizations) | VPar (p : parameterized).
(** reading a setting *)
Definition get (f : field) (m : mcfg F) : value :=
  let c := g_cfg m in
  match f with
  | FTolerance => VReal (numericalTolerance (exec c)) | FParallel => VBool (parallel (exec c)) | FNThreads => VNum (nthreads (exec c)) | FTimeout => VReal (timeout (exec c))
  | FRunConstruction => VBool (runConstructionChecker (exec c)) | FRunSimulation => VBool (runSimulationChecker (exec c))
  | FRunAlternating => VBool (runAlternatingChecker (exec c)) | FRunZX => VBool (runZXChecker (exec c))
  | FConstructionScheme => VScheme (constructionScheme (app c)) | FSimulationScheme => VScheme (simulationScheme (app c))
  | FAlternatingScheme => VScheme (alternatingScheme (app c)) | FProfile => VStr (profile (app c)) | FCostFunction => VCost (g_cost m)
  | FTraceThreshold => VReal (traceThreshold (func c)) | FPartialEquivalence => VBool (checkPartialEquivalence (func c))
  | FFidelityThreshold => VReal (fidelityThreshold (sim c)) | FMaxSims => VNum (maxSims (sim c)) | FStateType => VState (stateTyp (sim c)) | FSeed => VNum (seed (sim c))
  | FStoreInput => VBool (storeCEXinput (sim c)) | FStoreOutput => VBool (storeCEXoutput (sim c)) | FOptimizations => VOpts (opts c) | FParameterized => VPar (par c)
  end.
Definition field_eqb (a b : field) : bool :=
  let code f := match f with FTolerance => 0 | FParallel => 1 | FNThreads => 2 | FTimeout => 3 | FRunConstruction => 4 | FRunSimulation => 5 | FRunAlternating => 6
    | FRunZX => 7 | FConstructionScheme => 8 | FSimulationScheme => 9 | FAlternatingScheme => 10 | FProfile => 11 | FCostFunction => 12 | FTraceThreshold => 13
    | FPartialEquivalence => 14 | FFidelityThreshold => 15 | FMaxSims => 16 | FStateType => 17 | FSeed => 18 | FStoreInput => 19 | FStoreOutput => 20
    | FOptimizations => 21 | FParameterized => 22 end%N in N.eqb (code a) (code b).
(** the documented effects *)
Definition effects (x : setter F) : list (field * value) :=
  match x with
  | SetTolerance t => [(FTolerance, VReal t)]
  | SetParallel b => [(FParallel, VBool b)]
  | SetNThreads n => [(FNThreads, VNum n)]
  | SetTimeout t => [(FTimeout, VReal t)]
  | SetConstructionChecker b => [(FRunConstruction, VBool b)]
  | SetSimulationChecker b => [(FRunSimulation, VBool b)]
  | SetAlternatingChecker b => [(FRunAlternating, VBool b)]
  | SetZXChecker b => [(FRunZX, VBool b)]
  | DisableAllCheckers => [(FRunConstruction, VBool false); (FRunSimulation, VBool false); (FRunAlternating, VBool false); (FRunZX, VBool false)]
  | SetConstructionApplicationScheme s => [(FConstructionScheme, VScheme s)]
  | SetSimulationApplicationScheme s => [(FSimulationScheme, VScheme s)]
  | SetAlternatingApplicationScheme s => [(FAlternatingScheme, VScheme s)]
  | SetApplicationScheme s => [(FConstructionScheme, VScheme s); (FSimulationScheme, VScheme s); (FAlternatingScheme, VScheme s)]
  | SetConstructionGateCostProfile f => [(FConstructionScheme, VScheme GateCost); (FProfile, VStr f)]
  | SetSimulationGateCostProfile f => [(FSimulationScheme, VScheme GateCost); (FProfile, VStr f)]
  | SetAlternatingGateCostProfile f => [(FAlternatingScheme, VScheme GateCost); (FProfile, VStr f)]
  | SetGateCostProfile f => [(FConstructionScheme, VScheme GateCost); (FSimulationScheme, VScheme GateCost); (FAlternatingScheme, VScheme GateCost); (FProfile, VStr f)]
  | SetConstructionGateCostFunction f => [(FConstructionScheme, VScheme GateCost); (FCostFunction, VCost f)]
  | SetSimulationGateCostFunction f => [(FSimulationScheme, VScheme GateCost); (FCostFunction, VCost f)]
  | SetAlternatingGateCostFunction f => [(FAlternatingScheme, VScheme GateCost); (FCostFunction, VCost f)]
  | SetGateCostFunction f => [(FConstructionScheme, VScheme GateCost); (FSimulationScheme, VScheme GateCost); (FAlternatingScheme, VScheme GateCost); (FCostFunction, VCost f)]
  | SetTraceThreshold t => [(FTraceThreshold, VReal t)]
  | SetCheckPartialEquivalence b => [(FPartialEquivalence, VBool b)]
  | SetFidelityThreshold t => [(FFidelityThreshold, VReal t)]
  | SetMaxSims n => (if N.eqb n 0 then [(FRunSimulation, VBool false)] else []) ++ [(FMaxSims, VNum n)]
  | SetStateType t => [(FStateType, VState t)]
  | SetSeed n => [(FSeed, VNum n)]
  | StoreCEXinput b => [(FStoreInput, VBool b)]
  | StoreCEXoutput b => [(FStoreOutput, VBool b)]
  end.
Fixpoint effect (f : field) (l : list (field * value)) : option value :=
  match l with [] => None | (g, v) :: r => if field_eqb f g then Some v else effect f r end.
(** the last value that a sequence of setters gives a setting, if any does *)
Fixpoint final (f : field) (l : list (setter F)) : option value :=
  match l with [] => None | x :: r => match final f r with Some v => Some v | None => effect f (effects x) end end.
End Spec.
Arguments get {F}. Arguments effects {F}. Arguments effect {F}. Arguments final {F}. Arguments VBool {F}. Arguments VNum {F}. Arguments VReal {F}. Arguments VStr {F}.
Arguments VScheme {F}. Arguments VState {F}. Arguments VCost {F}. Arguments VOpts {F}. Arguments VPar {F}.
