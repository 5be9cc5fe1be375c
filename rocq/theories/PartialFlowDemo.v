(** Configurations and schedules used by C69. *)
From Coq Require Import String BinNums NArith List QArith.
From Verif Require Import Criterion Config SeqFlow SeqSpec SeqDemo ParFlow ParSpec ParDemo PropPar ParDecide ParDecideDemo Choice.
Local Open Scope list_scope.
(** configurations that check for partial equivalence *)
Definition partial_cfg (par con si alt : bool) (n : N) : config :=
  mkConfig
    (mkExecution 0 par 3 0 con si alt false)
    (mkOptimizations true true false false true false true)
    (mkApplication Proportional Proportional Proportional "")
    (mkFunctionality (1 # 100000000) true)
    (mkSimulation (1 # 100000000) n ComputationalBasis 0 true true)
    (mkParameterized 0 0).
(** both exact checkers, no simulation *)
Definition both_cfg : config := partial_cfg true true false true 0.

Lemma both_undisturbed a c v : par_undisturbed (lost_env true a c v) both_cfg 0%N.
Proof. split; [reflexivity|]. split; [reflexivity|]. split; [discriminate|]. split; [repeat split; reflexivity|]. split; [apply lost_total|reflexivity]. Qed.
(** either checker may be the first to answer *)
Lemma both_run (v : sverdict) :
  (exists x, reachable (lost_env true MNotEquivalent MEquivalent v) both_cfg 0%N 0 x /\ p_main x = MReturned /\ r_eq (p_res x) = NotEquivalent) /\
  (exists x, reachable (lost_env true MNotEquivalent MEquivalent v) both_cfg 0%N 0 x /\ p_main x = MReturned /\ r_eq (p_res x) = Equivalent).
Proof.
  split.
  - eexists. split; [exists (mains 3 ++ works 0 4 ++ mains 4 ++ works 1 3 ++ mains 1); vm_compute; reflexivity|split; reflexivity].
  - eexists. split; [exists (mains 3 ++ works 1 4 ++ mains 4 ++ works 0 3 ++ mains 1); vm_compute; reflexivity|split; reflexivity].
Qed.
(** sequential runs without simulations *)
Lemma seq_undisturbed con alt a c v : orb con alt = true -> Choice.undisturbed 1 (lost_env true a c v) (mkMgr (partial_cfg false con false alt 0) 0%N false nil empty_results).
Proof.
  intros H. split; [destruct con, alt; first [discriminate H|reflexivity]|]. split; [vm_compute; reflexivity|]. split; [repeat split; destruct con, alt; first [discriminate H|reflexivity]|]. split; [reflexivity|].
  exists nil, 0%N. split; [constructor|]. split; [reflexivity|]. split; [constructor|]. discriminate.
Qed.
(** the alternating checker and simulations, in parallel *)
Lemma alone_undisturbed a c v : par_undisturbed (lost_env true a c v) (partial_cfg true false true true 4) 0%N.
Proof. split; [reflexivity|]. split; [reflexivity|]. split; [discriminate|]. split; [repeat split; reflexivity|]. split; [apply lost_total|reflexivity]. Qed.
Lemma alone_run (v : sverdict) : exists x, reachable (lost_env true MNotEquivalent MEquivalent v) (partial_cfg true false true true 4) 0%N 0 x /\ p_main x = MReturned.
Proof. eexists. split; [exists (mains 4 ++ works 0 4 ++ mains 1 ++ mains 4 ++ works 1 4 ++ works 2 4 ++ mains 1); vm_compute; reflexivity|reflexivity]. Qed.
