(** The entry points of the Python layer, and configuration objects used for several calls: C72. *)
From Coq Require Import String List Bool ZArith.
From Verif Require Import PyConfig PyConfigProofs PyVerify PyVerifySpec PyVerifyProofs.
Import ListNotations.
Local Open Scope string_scope.

(** C72. A call that returns has accepted all keyword arguments, and its result is that of the flow for parameterised circuits iff one of the circuits is
    parameterised, and that of a plain run otherwise, under the configuration with all its keyword arguments applied; the caller's object is that
    configuration afterwards. *)
Theorem C72_verify : forall (V C R : Type) (convert : sect -> string -> V -> option V) (gate_cost : V) (path : string -> V) (default : pyconfig V)
  (parameterised : C -> bool) (check_parameterized check : C -> C -> pyconfig V -> R) (c c' : pyconfig V) (q : request V C) (r : R),
  serve convert gate_cost path default parameterised check_parameterized check c q = (c', Returned r) ->
  exists c0, (match q_flow q with
              | None => augment convert (if q_shared q then c else default) (q_kwargs q)
              | Some (l, m) => verify_compilation convert gate_cost path (if q_shared q then c else default) (q_kwargs q) l m
              end) = (c0, None) /\
    (parameterised (q_c1 q) = true \/ parameterised (q_c2 q) = true -> r = check_parameterized (q_c1 q) (q_c2 q) c0) /\
    (parameterised (q_c1 q) = false -> parameterised (q_c2 q) = false -> r = check (q_c1 q) (q_c2 q) c0) /\
    (q_shared q = true -> c' = c0) /\ (q_shared q = false -> c' = c).
Proof.
  intros V C R convert gate_cost path default parameterised check_parameterized check c c' q r E.
  destruct (serve_accepted V C R convert gate_cost path default parameterised check_parameterized check c q r) as (c0 & H1 & H2 & H3); [now rewrite E|].
  rewrite E in H3. cbn [fst] in H3. exists c0. split; [exact H1|]. split; [|split; [|split]].
  - intros P. assert (X : parameterised (q_c1 q) || parameterised (q_c2 q) = true) by now apply orb_true_iff. now rewrite X in H2.
  - intros P1 P2. now rewrite P1, P2 in H2.
  - intros S. now rewrite S in H3.
  - intros S. now rewrite S in H3.
Qed.
Print Assumptions C72_verify.
(** In a history of calls an option keeps its value as long as no call that is given the object names it (or sets it, as verify_compilation does). *)
Theorem C72_option_kept : forall (V C R : Type) (convert : sect -> string -> V -> option V) (gate_cost : V) (path : string -> V) (default : pyconfig V)
  (parameterised : C -> bool) (check_parameterized check : C -> C -> pyconfig V -> R) (c : pyconfig V) (qs : list (request V C)) (s : sect) (k : string),
  Forall (leaves_alone k) qs -> fst (history convert gate_cost path default parameterised check_parameterized check c qs) s k = c s k.
Proof. intros V C R convert gate_cost path default parameterised check_parameterized check c qs s k. exact (history_leaves V C R convert gate_cost path default parameterised check_parameterized check qs c s k). Qed.
Print Assumptions C72_option_kept.
(** A keyword argument of a call that returns holds for all later calls with the object, until one names the option again. *)
Theorem C72_keyword_persists : forall (V C R : Type) (convert : sect -> string -> V -> option V) (gate_cost : V) (path : string -> V) (default : pyconfig V)
  (parameterised : C -> bool) (check_parameterized check : C -> C -> pyconfig V -> R) (c : pyconfig V) (qs qs' : list (request V C)) (q : request V C)
  (s : sect) (k : string) (v : V) (kw kw' : list (string * V)) (r : R),
  let h := history convert gate_cost path default parameterised check_parameterized check c (qs ++ q :: qs') in
  nth_error (snd h) (length qs) = Some (Returned r) -> q_shared q = true -> q_kwargs q = (kw ++ (k, v) :: kw')%list -> ~ In k (map fst kw') -> In k (attrs s) ->
  q_flow q = None \/ ~ In k flow_options -> Forall (leaves_alone k) qs' ->
  convert s k v = Some (fst h s k).
Proof.
  intros V C R convert gate_cost path default parameterised check_parameterized check c qs qs' q s k v kw kw' r h O S K N A F L. subst h.
  destruct (history_after V C R convert gate_cost path default parameterised check_parameterized check c qs q qs') as (c0 & _ & H1 & H2); [now apply Forall_forall|].
  rewrite H2 in O. injection O as O. rewrite H1, (history_leaves V C R) by exact L.
  destruct (serve_accepted V C R convert gate_cost path default parameterised check_parameterized check c0 q r O) as (c' & G1 & _ & G3). rewrite G3, S in *.
  destruct (q_flow q) as [[l m]|].
  - destruct F as [F|F]; [discriminate|]. assert (X := flow_other V convert gate_cost path c0 (q_kwargs q) l m s k F). rewrite G1 in X. cbn [fst] in X. rewrite X, K.
    unfold verify_compilation in G1. rewrite K in G1. destruct (augment convert c0 (kw ++ (k, v) :: kw')) as [c1 [e|]] eqn:E; [discriminate|]. cbn [fst].
    exact (augment_last convert kw kw' c0 c1 k v s E N A).
  - rewrite K in G1. exact (augment_last convert kw kw' c0 c' k v s G1 N A).
Qed.
Print Assumptions C72_keyword_persists.
(** So do the schemes and the profile of a compilation flow: a later plain verification with the object still uses them. *)
Theorem C72_flow_persists : forall (V C R : Type) (convert : sect -> string -> V -> option V) (gate_cost : V) (path : string -> V) (default : pyconfig V)
  (parameterised : C -> bool) (check_parameterized check : C -> C -> pyconfig V -> R) (c : pyconfig V) (qs qs' : list (request V C)) (q : request V C)
  (l : Z) (m : ancilla_mode) (r : R),
  let h := history convert gate_cost path default parameterised check_parameterized check c (qs ++ q :: qs') in
  nth_error (snd h) (length qs) = Some (Returned r) -> q_shared q = true -> q_flow q = Some (l, m) -> Forall (fun q' => forall k, In k flow_options -> leaves_alone k q') qs' ->
  fst h Application "construction_scheme" = gate_cost /\ fst h Application "simulation_scheme" = gate_cost /\ fst h Application "alternating_scheme" = gate_cost /\
  fst h Application "profile" = path (generate_profile_name l m).
Proof.
  intros V C R convert gate_cost path default parameterised check_parameterized check c qs qs' q l m r h O S F L. subst h.
  destruct (history_after V C R convert gate_cost path default parameterised check_parameterized check c qs q qs') as (c0 & _ & H1 & H2); [now apply Forall_forall|].
  rewrite H2 in O. injection O as O. rewrite H1.
  assert (L' : forall k, In k flow_options -> Forall (leaves_alone k) qs') by (intros k I; eapply Forall_impl; [|exact L]; cbn; auto).
  rewrite !(history_leaves V C R) by (apply L'; cbn; tauto).
  destruct (serve_accepted V C R convert gate_cost path default parameterised check_parameterized check c0 q r O) as (c' & G1 & _ & G3). rewrite G3, S, F in *.
  unfold verify_compilation in G1. destruct (augment convert c0 (q_kwargs q)) as [c1 [e|]]; [discriminate|]. injection G1 as <-. repeat split.
Qed.
Print Assumptions C72_flow_persists.
(** Calls without a configuration object do not depend on earlier calls and have no effect on the object. *)
Theorem C72_independent_without_object : forall (V C R : Type) (convert : sect -> string -> V -> option V) (gate_cost : V) (path : string -> V) (default : pyconfig V)
  (parameterised : C -> bool) (check_parameterized check : C -> C -> pyconfig V -> R) (c c' : pyconfig V) (q : request V C), q_shared q = false ->
  fst (serve convert gate_cost path default parameterised check_parameterized check c q) = c /\
  snd (serve convert gate_cost path default parameterised check_parameterized check c q) = snd (serve convert gate_cost path default parameterised check_parameterized check c' q).
Proof.
  intros V C R convert gate_cost path default parameterised check_parameterized check c c' q S. split; [now rewrite serve_config, S|].
  unfold serve. rewrite S. destruct (match q_flow q with None => _ | Some _ => _ end) as [c0 o]. reflexivity.
Qed.
Print Assumptions C72_independent_without_object.
(** Keyword arguments are not for one call only. *)
Theorem C72_keywords_local_refuted : ~ (forall (V C R : Type) (convert : sect -> string -> V -> option V) (gate_cost : V) (path : string -> V) (default : pyconfig V)
  (parameterised : C -> bool) (check_parameterized check : C -> C -> pyconfig V -> R) (c : pyconfig V) (q q' : request V C),
  q_kwargs q' = [] -> nth_error (snd (history convert gate_cost path default parameterised check_parameterized check c [q; q'])) 1 =
                      nth_error (snd (history convert gate_cost path default parameterised check_parameterized check c [q'])) 0).
Proof.
  intros H. specialize (H bool unit bool (fun _ _ v => Some v) true (fun _ => true) (fun _ _ => false) (fun _ => false) (fun _ _ _ => false) (fun _ _ c => c Execution "parallel")
    (fun _ _ => false) (mkReq true tt tt [("parallel", true)] None) (mkReq true tt tt [] None) eq_refl). vm_compute in H. discriminate.
Qed.
Print Assumptions C72_keywords_local_refuted.

Definition demo_calls : list (request nat bool) :=
  [ mkReq true false false [("timeout", 5); ("max_sims", 3)] None; mkReq true false true [("nthreads", 2)] (Some (2%Z, VChain)); mkReq false true false [("timeout", 9)] None;
    mkReq true false false [("timeot", 1)] None; mkReq true false false [("max_sims", 4)] None ].
Example C72_nonvacuous : let h := history (fun _ _ v => Some v) 77 (fun _ => 88) (fun _ _ => 0) (fun b => b) (fun _ _ c => c Execution "timeout" + 1000) (fun _ _ c => c Execution "timeout") (fun _ _ => 0) demo_calls in
  snd h = [Returned 5; Returned 1005; Returned 1009; Raised (ValueError "timeot"); Returned 5] /\ fst h Execution "timeout" = 5 /\ fst h Simulation "max_sims" = 4 /\
  fst h Execution "nthreads" = 2 /\ fst h Application "profile" = 88 /\ fst h Application "alternating_scheme" = 77 /\
  Forall (leaves_alone "timeout") (tl demo_calls) /\ Forall (fun q' => forall k, In k flow_options -> leaves_alone k q') (tl (tl demo_calls)).
Proof.
  cbv zeta. repeat split; try reflexivity.
  - apply Forall_forall. intros q I. cbn in I. destruct I as [<-|[<-|[<-|[<-|[]]]]];
      first [left; reflexivity | right; split; [cbn; intuition discriminate|first [left; reflexivity | right; cbn; intuition discriminate]]].
  - apply Forall_forall. intros q I k J. cbn in I, J. destruct I as [<-|[<-|[<-|[]]]];
      first [left; reflexivity | right; split; [cbn; intuition (subst; discriminate)|left; reflexivity]].
Qed.
