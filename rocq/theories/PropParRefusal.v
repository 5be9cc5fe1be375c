(** C82: which configurations a parallel run refuses.
    Vocabulary: RefusalSpec.v (constructor_refuses, refuses), ParRefusalSpec.v (takes_part), ParSpec.v.  Model: ParFlow.v. *)
From Coq Require Import String List Bool NArith QArith.
From Verif Require Import Criterion Config SeqFlow SeqSpec SeqDemo ParFlow ParSpec ParDemo RefusalSpec ParRefusalSpec ParRefusalProofs.
Import ListNotations.
Local Open Scope list_scope.

(** [takes_part] describes exactly the checkers for which a thread is started *)
Theorem C82_takes_part {Stim Gen} (e : env Stim Gen) c k :
  sane_sims c -> enough_threads e c -> In k (launches e c) <-> takes_part e c k.
Proof. exact (takes_part_iff e c k). Qed.
Print Assumptions C82_takes_part.

(** If the constructor of a checker that takes part refuses, no interleaving lets run() return a result. *)
Theorem C82_never_returns {Stim Gen} (e : env Stim Gen) c g pp s k :
  sane_sims c -> enough_threads e c -> reachable e c g pp s ->
  takes_part e c k -> constructor_refuses e c k -> p_main s <> MReturned.
Proof. exact (never_returns e c g pp s k). Qed.
Print Assumptions C82_never_returns.

(** run() throws only if a checker that takes part refuses. *)
Theorem C82_throws_only_if_refused {Stim Gen} (e : env Stim Gen) c g pp s :
  sane_sims c -> enough_threads e c -> reachable e c g pp s ->
  p_main s = MUnwind \/ p_main s = MThrown -> exists k, takes_part e c k /\ refuses e c k.
Proof. exact (throw_only_if e c g pp s). Qed.
Print Assumptions C82_throws_only_if_refused.

(** Any checker that takes part and refuses can make run() throw: some interleaving ends that way. *)
Theorem C82_each_refusal_can_throw {Stim Gen} (e : env Stim Gen) c g pp k :
  sane_sims c -> enough_threads e c -> takes_part e c k -> refuses e c k ->
  gen_supplies e g (maxSims (sim c)) -> (takes_part e c KZX -> e_zx_perm_ok e = true) ->
  exists s, reachable e c g pp s /\ p_main s = MThrown.
Proof. exact (throw_possible_end e c g pp k). Qed.
Print Assumptions C82_each_refusal_can_throw.

(** If all that take part refuse (and no timeout is set), every completed run throws. *)
Theorem C82_all_refuse {Stim Gen} (e : env Stim Gen) c g pp s :
  sane_sims c -> enough_threads e c -> hasTimeout c = false ->
  (exists k, takes_part e c k) -> (forall k, takes_part e c k -> refuses e c k) ->
  reachable e c g pp s -> stuck e s -> p_main s = MThrown.
Proof. exact (all_refuse_throws e c g pp s). Qed.
Print Assumptions C82_all_refuse.

(** Claim: a run whose alternating checker cannot handle the circuits never returns a result. Refuted: unlike a refusing
    constructor, a refusing run can be overtaken. *)
Definition unhandled : env N N :=
  mkEnv false true true false false true true false MEquivalent MEquivalent (fun _ => SNotEquivalent) ZFail
    (fun g => Some (g, (g + 1)%N)) (fun _ => 0%N) None (fun _ => true).
Theorem C82_refusing_run_never_returns_refuted :
  exists (e : env N N) c g pp s, choose_flow e c = FParallel /\ sane_sims c /\ enough_threads e c /\
    takes_part e c KAlt /\ refuses e c KAlt /\ reachable e c g pp s /\ p_main s = MReturned /\ r_eq (p_res s) = NotEquivalent.
Proof.
  exists unhandled, (pdemo_cfg 2 false true true false 3 0 true), 0%N, 0.
  assert (B : exists s, prun unhandled (mains 3 ++ works 1 5 ++ works 0 1 ++ mains 4 ++ works 0 2 ++ mains 1)
      (par_init unhandled (pdemo_cfg 2 false true true false 3 0 true) 0%N 0) = Some s /\ p_main s = MReturned /\ r_eq (p_res s) = NotEquivalent)
    by (eexists; split; [vm_compute; reflexivity|split; reflexivity]).
  destruct B as (s & B & M & Q). exists s.
  split; [reflexivity|]. split; [reflexivity|]. split; [discriminate|]. split; [reflexivity|].
  split; [right; split; reflexivity|]. split; [eexists; exact B|]. split; assumption.
Qed.
Print Assumptions C82_refusing_run_never_returns_refuted.

(** non-vacuity: the lookahead scheme for the simulations, one alternating checker, two threads *)
Definition look_env : env N N := demo_env (fun _ => false) MEquivalent MEquivalent ZFail true false None.
Definition look_cfg := pdemo_cfg_s Lookahead 2 false true true false 3 0 true.
Example C82_example :
  choose_flow look_env look_cfg = FParallel /\ sane_sims look_cfg /\ enough_threads look_env look_cfg /\
  takes_part look_env look_cfg KSim /\ constructor_refuses look_env look_cfg KSim /\ ~ refuses look_env look_cfg KAlt.
Proof.
  split; [reflexivity|]. split; [reflexivity|]. split; [discriminate|]. split; [repeat split|].
  split; [left; reflexivity|]. intros [[H _]|[_ H]]; discriminate.
Qed.
(** ... with a third thread taken by ZX and only two threads the simulations do not take part, and the run may return *)
Example C82_example_starved :
  let c := pdemo_cfg_s Lookahead 2 false true true true 3 0 true in
  choose_flow look_env c = FParallel /\ sane_sims c /\ enough_threads look_env c /\ ~ takes_part look_env c KSim.
Proof.
  cbn zeta. split; [reflexivity|]. split; [reflexivity|]. split; [discriminate|]. intros (_ & _ & H). discriminate.
Qed.
(** only simulations, with the lookahead scheme: all refuse *)
Example C82_example_all :
  let c := pdemo_cfg_s Lookahead 2 false true false false 3 0 true in
  choose_flow look_env c = FParallel /\ sane_sims c /\ enough_threads look_env c /\ hasTimeout c = false /\
  (exists k, takes_part look_env c k) /\ (forall k, takes_part look_env c k -> refuses look_env c k) /\
  exists s, prun look_env (mains 3 ++ works 0 2 ++ mains 1 ++ works 1 2 ++ mains 1) (par_init look_env c 0%N 0) = Some s /\ p_main s = MThrown.
Proof.
  cbn zeta. split; [reflexivity|]. split; [reflexivity|]. split; [discriminate|]. split; [reflexivity|].
  split; [exists KSim; repeat split|]. split.
  - intros [| | |] H; cbn in H; try discriminate; try (destruct H; discriminate). left; left; reflexivity.
  - eexists. split; [vm_compute; reflexivity|reflexivity].
Qed.
