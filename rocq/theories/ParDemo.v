(** Concrete configurations and schedules used only by the examples of PropPar.v. *)
From Coq Require Import String List Bool NArith QArith.
From Verif Require Import Criterion Config SeqFlow SeqSpec SeqDemo ParFlow ParSpec.
Import ListNotations.
Local Open Scope list_scope.

(** as [demo_cfg], parallel with [nt] threads and the given simulation scheme *)
Definition pdemo_cfg_s (sch : scheme) (nt : N) (con si alt zx : bool) (n : N) (tmo : Q) (cex : bool) : config :=
  mkConfig
    (mkExecution 0 true nt tmo con si alt zx)
    (mkOptimizations true true false false true false true)
    (mkApplication Proportional sch Proportional "")
    (mkFunctionality (1 # 100000000) false)
    (mkSimulation (1 # 100000000) n ComputationalBasis 0 cex cex)
    (mkParameterized 0 0).
Definition pdemo_cfg := pdemo_cfg_s Proportional.

(** schedule fragments: the main thread or worker [i] takes [n] steps *)
Definition mains (n : nat) : list action := repeat AMain n.
Definition works (i n : nat) : list action := repeat (AWorker i) n.
