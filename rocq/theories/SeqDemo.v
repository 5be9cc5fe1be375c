(** Concrete environments and configurations used only by the non-vacuity examples. *)
From Coq Require Import String List Bool NArith QArith.
From Verif Require Import Criterion Config SeqFlow SeqSpec.
Import ListNotations.

(** a configuration with the given checkers (construction, simulation, alternating, ZX),
    number of simulations and timeout; everything else as default, not parallel *)
Definition demo_cfg (con si alt zx : bool) (n : N) (tmo : Q) (cex : bool) : config :=
  mkConfig
    (mkExecution 0 false 4 tmo con si alt zx)
    (mkOptimizations true true false false true false true)
    (mkApplication Proportional Proportional Proportional "")
    (mkFunctionality (1 # 100000000) false)
    (mkSimulation (1 # 100000000) n ComputationalBasis 0 cex cex)
    (mkParameterized 0 0).

(** stimuli are numbered 0, 1, 2, ...; [bad] is the set of refuting stimuli *)
Definition demo_env (bad : N -> bool) (alt con : mverdict) (zx : zverdict) (tr anc : bool)
    (fire : option nat) : env N N :=
  mkEnv false true tr anc true true true false alt con
    (fun s => if bad s then SNotEquivalent else SEquivalent) zx
    (fun g => Some (g, (g + 1)%N)) (fun _ => 0%N) fire (fun _ => true).

(** the same with symbolic circuits *)
Definition demo_sym (zx : zverdict) (tr : bool) (fire : option nat) : env N N :=
  mkEnv false false tr false true true true false MEquivalent MEquivalent
    (fun _ => SEquivalent) zx (fun g => Some (g, (g + 1)%N)) (fun _ => 0%N) fire (fun _ => true).

Lemma demo_total bad alt con zx tr anc fire g n : gen_supplies (demo_env bad alt con zx tr anc fire) g n.
Proof. intros l g' _ _. discriminate. Qed.

Definition no_par : env N N -> mgr N N -> outcome (mgr N N) := fun _ _ => Diverged.
