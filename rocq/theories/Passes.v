(** Model of the optimisation passes of the manager and of its constructor. No proofs in this file.

    The passes themselves are mqt-core's (qc::CircuitOptimizer, not in /repo): [apply] is an arbitrary function. [C] is the circuit. *)
From Coq Require Import List Bool NArith.
From Verif Require Import Criterion Config StateGen Perm Prep.
Import ListNotations.

Inductive pass := EliminateResets | DeferMeasurements | SwapReconstruction | BackpropagateOutputPermutation | ElidePermutations
  | SingleQubitGateFusion | RemoveDiagonalGatesBeforeMeasure | ReorderOperations | RemoveFinalMeasurements.

Section Passes.
Variable C : Type.
Variable apply : pass -> C -> C.
Variable isEmpty isDynamic : C -> bool.

(** src/EquivalenceCheckingManager.cpp:224-291 *)
Definition runOptimizationPasses (o : optimizations) (c1 c2 : C) : pres (C * C) :=
  if isEmpty c1 && isEmpty c2 then PVal (c1, c2)
  else
    let d1 := isDynamic c1 in let d2 := isDynamic c2 in
    pbind (if d1 || d2 then
             if transformDynamicCircuit o then
               PVal ((if d1 then apply DeferMeasurements (apply EliminateResets c1) else c1),
                     (if d2 then apply DeferMeasurements (apply EliminateResets c2) else c2))
             else PThrow
           else PVal (c1, c2))
      (fun cs =>
         let both (b : bool) (p : pass) (cs : C * C) := if b then (apply p (fst cs), apply p (snd cs)) else cs in
         let cs := both (reconstructSWAPs o) SwapReconstruction cs in
         let cs := both (backpropagateOutputPermutation o) BackpropagateOutputPermutation cs in
         let cs := both (elidePermutations o) ElidePermutations cs in
         let cs := both (fuseSingleQubitGates o) SingleQubitGateFusion cs in
         let cs := both (removeDiagonalGatesBeforeMeasure o) RemoveDiagonalGatesBeforeMeasure cs in
         let cs := both (reorderOperations o) ReorderOperations cs in
         PVal (both true RemoveFinalMeasurements cs)).

(** src/EquivalenceCheckingManager.cpp:365-368; [varfree]: qc::QuantumComputation::isVariableFree *)
Definition optimise (varfree : C -> bool) (o : optimizations) (c1 c2 : C) : pres (C * C) :=
  if varfree c1 && varfree c2 then runOptimizationPasses o c1 c2 else PVal (c1, c2).

(** the methods of the manager that request a pass after construction, src/EquivalenceCheckingManager.cpp:897-935 *)
Inductive request := RFuse | RSwaps | RReorder | RBackpropagate | RElide.
Definition mst : Type := C * C * optimizations.
Definition doRequest (m : mst) (r : request) : mst :=
  let '(c1, c2, o) := m in
  match r, o with
  | RFuse, mkOptimizations f s d t r b e =>
      if f then m else (apply SingleQubitGateFusion c1, apply SingleQubitGateFusion c2, mkOptimizations true s d t r b e)
  | RSwaps, mkOptimizations f s d t r b e =>
      if s then m else (apply SwapReconstruction c1, apply SwapReconstruction c2, mkOptimizations f true d t r b e)
  | RReorder, mkOptimizations f s d t r b e =>
      if r then m else (apply ReorderOperations c1, apply ReorderOperations c2, mkOptimizations f s d t true b e)
  | RBackpropagate, mkOptimizations f s d t r b e =>
      if b then m else (apply BackpropagateOutputPermutation c1, apply BackpropagateOutputPermutation c2, mkOptimizations f s d t r true e)
  | RElide, mkOptimizations f s d t r b e =>
      if e then m else (apply ElidePermutations c1, apply ElidePermutations c2, mkOptimizations f s d t r b true)
  end.
End Passes.
Arguments runOptimizationPasses {C}. Arguments optimise {C}. Arguments doRequest {C}. Arguments mst : clear implicits.

Section Constructor.
Variable A : Type.
Variable actsOn : A -> nat -> bool.
Variable apply : pass -> circ A -> circ A.
Variable isEmpty isDynamic varfree : circ A -> bool.
(** getNqubitsWithoutAncillae: the qubits that are not ancillary *)
Definition primary (c : circ A) : nat := length (filter (fun q => negb (q_anc c q)) (seq 0 (q_n c))).
(** the settings that the constructor changes *)
Record settings := mkSettings { s_alt : bool; s_con : bool; s_maxSims : N }.
(** src/EquivalenceCheckingManager.cpp:354-410: the circuits and settings the manager holds afterwards. Tolerance, warning, timing and
    the seeding of the generator (StateGen.v) are left out *)
Definition construct (ndebug : bool) (cfg : config) (c1 c2 : circ A) : pres (circ A * circ A * settings) :=
  pbind (optimise apply isEmpty isDynamic varfree (opts cfg) c1 c2) (fun r =>
  pbind (prepare actsOn ndebug (fst r) (snd r)) (fun r =>
    let '(a, k) := fallback actsOn (runAlternatingChecker (exec cfg)) (runConstructionChecker (exec cfg)) (fst r) (snd r) in
    match clamp_sims (runSimulationChecker (exec cfg)) (stateTyp (sim cfg)) (N.of_nat (primary (fst r))) (maxSims (sim cfg)) with
    | None => PUndefined
    | Some n => PVal (r, mkSettings a k n)
    end)).
End Constructor.
Arguments primary {A}. Arguments construct {A}.
