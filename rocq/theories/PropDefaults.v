(** C76: documented defaults, and methods called without an argument. *)
From Coq Require Import String List Bool NArith QArith Lia.
From Verif Require Import Criterion Config Setters SettersSpec Defaults DefaultsSpec PropSetters.
Import ListNotations.

(** A configuration that was just constructed has the documented values, whatever the machine *)
Theorem C76_documented_defaults : forall hw eps, documented hw eps (default_config hw eps).
Proof.
  intros hw eps. unfold documented. repeat split.
  unfold default_config, computeMaxSims, documented_max_sims. cbn [sim maxSims].
  destruct (N.ltb_spec hw 2); destruct (N.leb_spec hw 18); lia.
Qed.
Print Assumptions C76_documented_defaults.
(** the number of threads is the documented one if the machine has two or more; otherwise it is not *)
Theorem C76_documented_threads : forall hw eps, (2 <= hw)%N -> nthreads (exec (default_config hw eps)) = documented_nthreads hw.
Proof. intros hw eps h. cbn. unfold default_nthreads, documented_nthreads. lia. Qed.
Print Assumptions C76_documented_threads.
Theorem C76_documented_threads_any_machine_refuted : ~ forall hw eps, nthreads (exec (default_config hw eps)) = documented_nthreads hw.
Proof. intros h. specialize (h 1%N 0). discriminate h. Qed.
Print Assumptions C76_documented_threads_any_machine_refuted.
Theorem C76_at_least_two_threads : forall hw eps, nthreads (exec (default_config hw eps)) = N.max hw 2.
Proof. intros hw eps. cbn. unfold default_nthreads. lia. Qed.
Print Assumptions C76_at_least_two_threads.

Lemma max_sims_default hw : (2 <= hw)%N -> (hw < 2 ^ 32)%N -> bindings_default_max_sims hw = computeMaxSims hw.
Proof.
  intros h1 h2. unfold bindings_default_max_sims, computeMaxSims. destruct (N.ltb_spec hw 2); [lia|]. f_equal.
  replace (hw + 2 ^ 32 - 2)%N with ((hw - 2) + 1 * 2 ^ 32)%N by lia. rewrite N.mod_add by discriminate. apply N.mod_small. lia.
Qed.
Lemma last_call {F} (l : list (setter F)) x m f v : effect f (effects x) = Some v -> get f (calls (l ++ [x]) m) = v.
Proof. intros h. unfold calls. rewrite fold_left_app. cbn [fold_left]. rewrite (call_spec x). now rewrite h. Qed.
Lemma one_default {F} hw eps p f v (k : F) : (2 <= hw)%N -> (hw < 2 ^ 32)%N -> sets_profile p = false ->
  effect f (effects (no_argument (F := F) hw eps p)) = Some v -> v = get f (mkMcfg (default_config hw eps) k).
Proof.
  intros h1 h2 hp. destruct p; try discriminate hp; cbn [no_argument effects];
    try (destruct f; cbn; intros E; try discriminate E; injection E as <-; reflexivity).
  rewrite (max_sims_default hw h1 h2).
  assert (computeMaxSims hw <> 0%N) by (unfold computeMaxSims; destruct (N.ltb hw 2); lia).
  destruct (N.eqb_spec (computeMaxSims hw) 0); [contradiction|].
  destruct f; cbn; intros E; try discriminate E; injection E as <-; reflexivity.
Qed.
(** On a machine with at least two threads, calling a method without an argument gives what it sets the default value, after any history *)
Theorem C76_no_argument_restores_default : forall (F : Type) hw eps (l : list (setter F)) m p f (k : F), (2 <= hw)%N -> (hw < 2 ^ 32)%N ->
  sets_profile p = false -> concerns (F := F) p f ->
  get f (calls (l ++ [no_argument hw eps p]) m) = get f (mkMcfg (default_config hw eps) k).
Proof.
  intros F hw eps l m p f k h1 h2 hp c.
  assert (E : exists v, effect f (effects (no_argument (F := F) hw eps p)) = Some v).
  { assert (hm : N.eqb (bindings_default_max_sims hw) 0 = false).
    { apply N.eqb_neq. rewrite (max_sims_default hw h1 h2). unfold computeMaxSims. destruct (N.ltb hw 2); lia. }
    destruct p; try discriminate hp; cbn in c;
      repeat (destruct c as [<-|c]; [cbn [no_argument effects]; rewrite ?hm; cbn; eexists; reflexivity|]); destruct c. }
  destruct E as [v E]. rewrite (last_call l _ m f v E). exact (one_default hw eps p f v k h1 h2 hp E).
Qed.
Print Assumptions C76_no_argument_restores_default.
(** Calling all of them, in any order and any number of times, restores every setting that has such a method *)
Lemma final_in {F} (l : list (setter F)) f : (exists x v, In x l /\ effect f (effects x) = Some v) -> final f l <> None.
Proof.
  intros (x & v & hx & hv). induction l as [|y l IH]; [destruct hx|]. cbn [final]. destruct hx as [->|hx].
  - destruct (final f l); [discriminate|]. rewrite hv. discriminate.
  - specialize (IH hx). destruct (final f l); [discriminate|contradiction].
Qed.
Lemma final_from {F} (l : list (setter F)) f v : final f l = Some v -> exists x, In x l /\ effect f (effects x) = Some v.
Proof.
  induction l as [|y l IH]; cbn [final]; [discriminate|]. destruct (final f l).
  - intros E. destruct (IH E) as (x & hx & hv). exists x. split; [now right|exact hv].
  - intros E. exists y. split; [now left|exact E].
Qed.
Theorem C76_all_defaults_restored : forall (F : Type) hw eps (l : list (setter F)) (ps : list method) m f (k : F), (2 <= hw)%N -> (hw < 2 ^ 32)%N ->
  (forall p, In p ps <-> sets_profile p = false) -> restorable f = true ->
  get f (calls (l ++ map (no_argument hw eps) ps) m) = get f (mkMcfg (default_config hw eps) k).
Proof.
  intros F hw eps l ps m f k h1 h2 all hf. unfold calls. rewrite fold_left_app.
  fold (calls l m). fold (calls (map (no_argument (F := F) hw eps) ps) (calls l m)). rewrite C57_last_call_wins.
  assert (hm : N.eqb (bindings_default_max_sims hw) 0 = false).
  { apply N.eqb_neq. rewrite (max_sims_default hw h1 h2). unfold computeMaxSims. destruct (N.ltb hw 2); lia. }
  assert (E : final f (map (no_argument (F := F) hw eps) ps) <> None).
  { apply final_in.
    assert (X : exists p, sets_profile p = false /\ exists v, effect f (effects (no_argument (F := F) hw eps p)) = Some v).
    { destruct f; try discriminate hf;
        [ exists set_tolerance | exists set_parallel | exists set_nthreads | exists set_timeout | exists set_construction_checker
        | exists set_simulation_checker | exists set_alternating_checker | exists set_zx_checker | exists set_application_scheme
        | exists set_application_scheme | exists set_application_scheme | exists set_trace_threshold | exists set_check_partial_equivalence
        | exists set_fidelity_threshold | exists set_max_sims | exists set_state_type | exists set_seed | exists store_cex_input | exists store_cex_output ];
        (split; [reflexivity|]); cbn [no_argument effects]; rewrite ?hm; cbn; eexists; reflexivity. }
    destruct X as (p & hp & v & hv). exists (no_argument hw eps p), v. split; [|exact hv]. apply in_map. now apply all. }
  destruct (final f (map (no_argument (F := F) hw eps) ps)) as [v|] eqn:Ev; [|contradiction].
  apply final_from in Ev as (x & hx & hv). apply in_map_iff in hx as (p & <- & hp). apply all in hp.
  exact (one_default hw eps p f v k h1 h2 hp hv).
Qed.
Print Assumptions C76_all_defaults_restored.
(** Not on every machine: where fewer than two threads are reported, set_max_sims() asks for more than four thousand million simulations *)
Theorem C76_restored_on_any_machine_refuted :
  ~ forall (F : Type) hw eps (l : list (setter F)) m p f (k : F), (hw < 2 ^ 32)%N -> sets_profile p = false -> concerns (F := F) p f ->
    get f (calls (l ++ [no_argument hw eps p]) m) = get f (mkMcfg (default_config hw eps) k).
Proof.
  intros h. specialize (h nat 1%N 0 [] (mkMcfg (default_config 1 0) 0%nat) set_max_sims FMaxSims 0%nat ltac:(reflexivity) eq_refl ltac:(now left)).
  vm_compute in h. discriminate h.
Qed.
Print Assumptions C76_restored_on_any_machine_refuted.
(** The methods for profiles do not restore the default scheme: without an argument they select the gate-cost scheme, forget the profile,
    and so the cost function decides *)
Theorem C76_profile_without_argument : forall (F : Type) hw eps (l : list (setter F)) m matrices,
  let m' := calls (l ++ [no_argument hw eps set_gate_cost_profile]) m in
  initializeApplicationScheme matrices (constructionScheme (app (g_cfg m'))) m' = Some (CCostFunction (g_cost m') (fuseSingleQubitGates (opts (g_cfg m')))).
Proof. intros F hw eps l m matrices. unfold calls. rewrite fold_left_app. reflexivity. Qed.
Print Assumptions C76_profile_without_argument.

Example C76_nonvacuous : let h := [SetNThreads 1; SetMaxSims 0; SetGateCostProfile "a.profile"%string; SetTimeout (3 # 2)] in
  let m := calls h (mkMcfg (default_config 8 0) 0%nat) in
  (2 <= 8)%N /\ (8 < 2 ^ 32)%N /\ sets_profile set_max_sims = false /\ concerns (F := nat) set_max_sims FMaxSims /\
  get FMaxSims m = VNum 0 /\ get FMaxSims (calls [no_argument 8 0 set_max_sims] m) = VNum 16 /\
  get FAlternatingScheme (calls [no_argument 8 0 set_application_scheme] m) = VScheme Proportional.
Proof. repeat split; try (vm_compute; reflexivity); try (vm_compute; discriminate). now left. Qed.
