(** Specification vocabulary for the optimisation passes. No proofs. *)
From Coq Require Import List Bool.
From Verif Require Import Config Passes.
Import ListNotations.

(** the documented order of the optional passes *)
Definition documented_order : list pass :=
  [SwapReconstruction; BackpropagateOutputPermutation; ElidePermutations; SingleQubitGateFusion; RemoveDiagonalGatesBeforeMeasure; ReorderOperations].
Definition configured (o : optimizations) (p : pass) : bool :=
  match p with
  | SwapReconstruction => reconstructSWAPs o
  | BackpropagateOutputPermutation => backpropagateOutputPermutation o
  | ElidePermutations => elidePermutations o
  | SingleQubitGateFusion => fuseSingleQubitGates o
  | RemoveDiagonalGatesBeforeMeasure => removeDiagonalGatesBeforeMeasure o
  | ReorderOperations => reorderOperations o
  | EliminateResets | DeferMeasurements | RemoveFinalMeasurements => false
  end.
Definition dynamic_passes (dynamic : bool) : list pass := if dynamic then [EliminateResets; DeferMeasurements] else [].
(** the passes applied to a circuit, in order *)
Definition schedule (o : optimizations) (dynamic : bool) : list pass :=
  dynamic_passes dynamic ++ filter (configured o) documented_order ++ [RemoveFinalMeasurements].
Definition apply_all {C} (apply : pass -> C -> C) (ps : list pass) (c : C) : C := fold_left (fun c p => apply p c) ps c.
Definition requested (r : request) : pass :=
  match r with RFuse => SingleQubitGateFusion | RSwaps => SwapReconstruction | RReorder => ReorderOperations
  | RBackpropagate => BackpropagateOutputPermutation | RElide => ElidePermutations end.
