(** A configuration used by the example of C68. *)
From Coq Require Import BinNums NArith List Arith QArith Lia.
From Verif Require Import Criterion Config SeqFlow SeqSpec SeqDemo VerdictSpec Passes Construct.
Definition construct_cfg := demo_cfg false true true false 4 0 false.
Lemma demo_constructed {Stim Gen} (e : env Stim Gen) s g : e_empty e = false -> e_varfree e = true -> e_fire e = None -> e_ndebug e = true -> e_profile_ok e = true ->
  e_zx_perm_ok e = true -> Passes.s_alt s = true -> Passes.s_con s = false -> s_maxSims s = 2%N -> gen_supplies e g (maxSims (sim (constructed construct_cfg s))) ->
  checkers_constructible e (constructed construct_cfg s) /\ plain_sequential_run 3 e (constructed construct_cfg s) (fresh (constructed construct_cfg s) g 0).
Proof.
  intros E V F N P Z A K M S. split.
  - split; intros _; cbn; rewrite ?P; auto.
  - split; [split|split].
    + reflexivity.
    + reflexivity.
    + unfold choose_flow, anythingToExecute, onlySingleTask, constructed. cbn. rewrite E, V, A, K, ?M. reflexivity.
    + unfold never_fires. cbn. auto.
    + exact S.
    + cbn [constructed sim maxSims]. rewrite M. reflexivity.
    + auto.
Qed.
