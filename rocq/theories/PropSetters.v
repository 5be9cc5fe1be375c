(** Setters of the manager: C57. *)
From Coq Require Import String List Bool NArith QArith.
From Verif Require Import Criterion Config EnumSpec Setters SettersSpec.
Import ListNotations.
Open Scope string_scope.

(** C57. A setter gives the settings it names the value it says and leaves every other one as it is. *)
Lemma call_spec {F} (x : setter F) m f : get f (call x m) = match effect f (effects x) with Some v => v | None => get f m end.
Proof. destruct m as [[e o a u s p] k], x; try (destruct f; reflexivity). cbn [effects]. unfold call, m_setMaxSims, setMaxSims. destruct (N.eqb n 0); destruct f; reflexivity. Qed.
Theorem C57_setter {F} (x : setter F) m f : get f (call x m) = match effect f (effects x) with Some v => v | None => get f m end.
Proof. exact (call_spec x m f). Qed.
Print Assumptions C57_setter.
(** After any sequence of calls a setting has the last value given to it, or the one it had before if none was given. *)
Theorem C57_last_call_wins {F} (l : list (setter F)) m f : get f (calls l m) = match final f l with Some v => v | None => get f m end.
Proof.
  revert m. induction l as [|x l IH]; intros m; [reflexivity|]. change (calls (x :: l) m) with (calls l (call x m)). rewrite IH, call_spec. cbn [final]. now destruct (final f l).
Qed.
Print Assumptions C57_last_call_wins.
(** No setter touches the optimisation flags or the settings for parameterised circuits. *)
Theorem C57_optimisations_untouched {F} (l : list (setter F)) m : opts (g_cfg (calls l m)) = opts (g_cfg m) /\ par (g_cfg (calls l m)) = par (g_cfg m).
Proof.
  assert (N : forall f, f = FOptimizations \/ f = FParameterized -> final f l = None).
  { intros f E. induction l as [|x l' IH]; [reflexivity|]. cbn [final]. rewrite IH. destruct x, E as [-> | ->]; try reflexivity; cbn [effects]; now destruct (N.eqb n 0). }
  split.
  - pose proof (C57_last_call_wins l m FOptimizations) as H. rewrite N in H by auto. now injection H.
  - pose proof (C57_last_call_wins l m FParameterized) as H. rewrite N in H by auto. now injection H.
Qed.
Print Assumptions C57_optimisations_untouched.
(** Two managers whose settings agree are configured equally. *)
Theorem C57_settings_are_everything {F} (m m' : mcfg F) : (forall f, get f m = get f m') -> m = m'.
Proof.
  intros H. destruct m as [[[] o [] [] [] p] k], m' as [[[] o' [] [] [] p'] k'].
  pose proof (H FTolerance) as H1; pose proof (H FParallel) as H2; pose proof (H FNThreads) as H3; pose proof (H FTimeout) as H4; pose proof (H FRunConstruction) as H5;
  pose proof (H FRunSimulation) as H6; pose proof (H FRunAlternating) as H7; pose proof (H FRunZX) as H8; pose proof (H FConstructionScheme) as H9; pose proof (H FSimulationScheme) as H10;
  pose proof (H FAlternatingScheme) as H11; pose proof (H FProfile) as H12; pose proof (H FCostFunction) as H13; pose proof (H FTraceThreshold) as H14; pose proof (H FPartialEquivalence) as H15;
  pose proof (H FFidelityThreshold) as H16; pose proof (H FMaxSims) as H17; pose proof (H FStateType) as H18; pose proof (H FSeed) as H19; pose proof (H FStoreInput) as H20;
  pose proof (H FStoreOutput) as H21; pose proof (H FOptimizations) as H22; pose proof (H FParameterized) as H23.
  cbn in *. congruence.
Qed.
Print Assumptions C57_settings_are_everything.
(** Whatever was set before: after setting the number of simulations to 0 no simulation is a task (until the checker is switched on again). *)
Theorem C57_no_simulations {F} (l : list (setter F)) m : let m' := calls (l ++ [SetMaxSims 0]) m in
  runSimulationChecker (exec (g_cfg m')) = false /\ maxSims (sim (g_cfg m')) = 0%N.
Proof. unfold calls. rewrite fold_left_app. cbn. auto. Qed.
Print Assumptions C57_no_simulations.
(** Switching everything off leaves nothing to execute. *)
Theorem C57_disable_all {F} (l : list (setter F)) m : anythingToExecute (g_cfg (calls (l ++ [DisableAllCheckers]) m)) = false.
Proof. unfold calls. rewrite fold_left_app. reflexivity. Qed.
Print Assumptions C57_disable_all.
(** The scheme a checker uses: the profile if one is named, the cost function otherwise; the lookahead scheme is refused for vectors. *)
Theorem C57_scheme_used {F} (m : mcfg F) matrices s :
  initializeApplicationScheme matrices s m =
    match s with
    | Sequential => Some CSequential | OneToOne => Some COneToOne
    | Lookahead => if matrices then Some CLookahead else None
    | GateCost => if String.eqb (profile (app (g_cfg m))) "" then Some (CCostFunction (g_cost m) (fuseSingleQubitGates (opts (g_cfg m))))
                  else Some (CProfile (profile (app (g_cfg m))) (fuseSingleQubitGates (opts (g_cfg m))))
    | Proportional => Some (CProportional (fuseSingleQubitGates (opts (g_cfg m))))
    end.
Proof. unfold initializeApplicationScheme. destruct s; try reflexivity. now destruct (String.eqb (profile (app (g_cfg m))) ""). Qed.
Print Assumptions C57_scheme_used.
(** A profile that is set is used by all checkers with the gate-cost scheme ... *)
Theorem C57_profile_used {F} (l : list (setter F)) m matrices f : f <> "" ->
  let m' := calls (l ++ [SetGateCostProfile f]) m in
  initializeApplicationScheme matrices (constructionScheme (app (g_cfg m'))) m' = Some (CProfile f (fuseSingleQubitGates (opts (g_cfg m)))).
Proof.
  intros N. cbn zeta. rewrite C57_scheme_used. destruct (C57_optimisations_untouched (l ++ [SetGateCostProfile f]) m) as [-> _]. unfold calls. rewrite fold_left_app. cbn.
  destruct (String.eqb_spec f ""); [congruence|reflexivity].
Qed.
Print Assumptions C57_profile_used.
(** ... but a cost function that is set is used only if no profile has ever been set: setting the cost function does not clear the profile. *)
Theorem C57_cost_function_used {F} (l : list (setter F)) m matrices f : profile (app (g_cfg (calls l m))) = "" ->
  let m' := calls (l ++ [SetGateCostFunction f]) m in
  initializeApplicationScheme matrices (constructionScheme (app (g_cfg m'))) m' = Some (CCostFunction f (fuseSingleQubitGates (opts (g_cfg m)))).
Proof.
  intros N. cbn zeta. rewrite C57_scheme_used. destruct (C57_optimisations_untouched (l ++ [SetGateCostFunction f]) m) as [-> _]. unfold calls in *. rewrite fold_left_app. cbn.
  now rewrite N.
Qed.
Print Assumptions C57_cost_function_used.
Theorem C57_cost_function_used_refuted : ~ (forall (l : list (setter nat)) m matrices f, let m' := calls (l ++ [SetGateCostFunction f]) m in
  initializeApplicationScheme matrices (constructionScheme (app (g_cfg m'))) m' = Some (CCostFunction f (fuseSingleQubitGates (opts (g_cfg m))))).
Proof. intros H. specialize (H [SetGateCostProfile "my.profile"] (mkMcfg (default_config 8 0) 0%nat) true 1%nat). vm_compute in H. discriminate. Qed.
Print Assumptions C57_cost_function_used_refuted.

Example C57_nonvacuous : let m := calls [SetNThreads 4; SetMaxSims 0; SetAlternatingGateCostProfile "a.profile"; SetMaxSims 7; SetTimeout (3 # 2)] (mkMcfg (default_config 8 0) 0%nat) in
  get FMaxSims m = VNum 7 /\ get FRunSimulation m = VBool false /\ get FAlternatingScheme m = VScheme GateCost /\ get FSimulationScheme m = VScheme Proportional /\
  get FProfile m = VStr "a.profile" /\ get FTimeout m = VReal (3 # 2).
Proof. vm_compute. auto 10. Qed.
