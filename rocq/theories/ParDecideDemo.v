(** A schedule used by C67. *)
From Coq Require Import BinNums NArith List QArith.
From Verif Require Import Criterion Config SeqFlow SeqSpec SeqDemo ParFlow ParSpec ParDemo PropPar ParDecide.

Lemma returned_stuck (Stim Gen : Type) (e : env Stim Gen) (x : pst Stim Gen) : p_main x = MReturned -> stuck e x.
Proof. intros E [| |i|i]; cbn [pstep]; unfold main_step, timeout_step, worker_step, abort_step, live; rewrite E; reflexivity. Qed.
(** [pe_env] with other verdicts of the decision-diagram checkers *)
Definition lost_env (ch : bool) (a c : mverdict) (v : sverdict) : env N N :=
  mkEnv false true true false ch true true false a c (fun _ => v) ZFail (fun g => Some (g, (g + 1)%N)) (fun _ => 0%N) None (fun _ => true).
Lemma lost_run ch a c (v : sverdict) : v <> SNotEquivalent ->
  exists x, prun (lost_env ch a c v) lost_sched (par_init (lost_env ch a c v) lost_cfg 0%N 0) = Some x /\ p_main x = MReturned /\ r_eq (p_res x) = NoInformation.
Proof.
  destruct v; intros H; [| |contradiction H; reflexivity]; eexists; (split; [vm_compute; reflexivity|split; reflexivity]).
Qed.
(** three threads: alternating checker and up to four simulations; the alternating checker finishes first *)
Definition kept_cfg := pdemo_cfg 3 false true true false 4 0 true.
Lemma kept_run a c (v : sverdict) :
  exists acts x, prun (lost_env true a c v) acts (par_init (lost_env true a c v) kept_cfg 0%N 0) = Some x /\ p_main x = MReturned /\ r_eq (p_res x) = mcrit a.
Proof.
  exists (mains 4 ++ works 0 4 ++ mains 1 ++ mains 4 ++ works 1 4 ++ works 2 4 ++ mains 1)%list.
  destruct a; eexists; (split; [vm_compute; reflexivity|split; reflexivity]).
Qed.
Lemma lost_total ch a c v g n : gen_supplies (lost_env ch a c v) g n.
Proof. intros l g' _ _. discriminate. Qed.
Lemma lost_undisturbed a c v : par_undisturbed (lost_env true a c v) lost_cfg 0%N.
Proof. split; [reflexivity|]. split; [reflexivity|]. split; [discriminate|]. split; [repeat split; reflexivity|]. split; [apply lost_total|reflexivity]. Qed.
Lemma kept_undisturbed a c v : par_undisturbed (lost_env true a c v) kept_cfg 0%N.
Proof. split; [reflexivity|]. split; [reflexivity|]. split; [discriminate|]. split; [repeat split; reflexivity|]. split; [apply lost_total|reflexivity]. Qed.
