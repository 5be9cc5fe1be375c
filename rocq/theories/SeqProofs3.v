(** Termination, abnormal exits, reset, trivial and symbolic flows. *)
From Coq Require Import String List Bool NArith QArith Arith Lia.
From Verif Require Import Criterion Config EnumSpec EnumProofs SeqFlow SeqSpec SeqProofs SeqProofs2.
Import ListNotations.
Local Open Scope list_scope.

Section Proofs3.
Context {Stim Gen : Type}.
Notation env := (env Stim Gen).
Notation mgr := (mgr Stim Gen).
Implicit Types (e : env) (m : mgr) (c : config) (r : results Stim) (g : Gen).

(** *** abnormal exits of the individual phases *)
Definition abnormal {A} (o : outcome A) : Prop := match o with Returned _ => False | _ => True end.

Lemma exact_phase_shape k en v th e c s :
  (exists s', seqExact k en v th e c s = inl (Returned s')) \/
  (en = true /\ s_done s = false /\ (ctor_throws e c k = true \/ th = true) /\
   seqExact k en v th e c s = inr (leave_by_exception c)).
Proof.
  unfold seqExact. destruct en; cbn [negb]; [|eauto].
  unfold reads_done. destruct (s_done s) eqn:D; cbn [orb]; [eauto|].
  destruct (fired e c (s_t s)); [eauto|].
  destruct (ctor_throws e c k); [right; auto|].
  cbn [tick s_done s_t]. rewrite D. cbn [orb].
  destruct (fired e c (S (s_t s))); [eauto|].
  destruct th; [right; auto|]. left.
  destruct (interrupted e c (S (S (s_t s)))); [eauto|]. destruct v; cbn; eauto.
Qed.

Lemma zx_phase_shape e c s :
  (exists s', seqZX e c s = inl (Returned s')) \/
  (runZXChecker (exec c) = true /\ e_transformable e = true /\ e_zx_perm_ok e = false /\
   seqZX e c s = inr Terminated) \/
  (runZXChecker (exec c) = true /\ e_transformable e = true /\ e_ndebug e = false /\
   r_eq (s_res s) = NoInformation /\ onlyZXCheckerConfigured c = false /\ s_done s = false /\
   seqZX e c s = inr AssertFailed).
Proof.
  unfold seqZX. destruct (runZXChecker (exec c)); cbn [negb]; [|eauto].
  unfold reads_done. destruct (s_done s) eqn:D; cbn [orb]; [eauto|].
  destruct (fired e c (s_t s)); [eauto|].
  destruct (e_transformable e); [|destruct (onlyZXCheckerConfigured c); eauto].
  destruct (e_zx_perm_ok e); cbn [negb]; [|right; left; auto].
  cbn [tick s_done s_t]. rewrite D. cbn [orb].
  destruct (fired e c (S (s_t s))); [eauto|].
  cbn [set_done tick add_checker s_res with_res].
  assert (HA : forall x : outcome (@st Stim Gen) + outcome (@st Stim Gen), (exists s', x = inl (Returned s')) ->
    (exists s', (if criterion_eqb (r_eq (s_res s)) NoInformation && negb (onlyZXCheckerConfigured c) && negb (e_ndebug e)
        then inr AssertFailed else x) = inl (Returned s')) \/
    (true = true /\ true = true /\ e_ndebug e = false /\ r_eq (s_res s) = NoInformation /\ onlyZXCheckerConfigured c = false /\ false = false /\
     (if criterion_eqb (r_eq (s_res s)) NoInformation && negb (onlyZXCheckerConfigured c) && negb (e_ndebug e)
        then inr AssertFailed else x) = inr AssertFailed)).
  { intros x Hx. destruct (r_eq (s_res s)); cbn; auto.
    destruct (onlyZXCheckerConfigured c); cbn; auto. destruct (e_ndebug e); cbn; auto.
    right. repeat split. }
  destruct (interrupted e c (S (S (s_t s)))).
  - destruct (HA (inl (Returned (set_done (tick (add_checker (mkChecker KZX NoInformation None) (tick (tick s)))))))) as [?|?]; eauto.
  - destruct (e_zx e), (e_ancilla e); cbn [zcrit]; eauto.
    + destruct (HA (inl (Returned (set_done (tick (add_checker (mkChecker KZX NoInformation None) (tick (tick s)))))))) as [?|?]; eauto.
    + destruct (criterion_eqb (r_eq (s_res s)) ProbablyEquivalent); eauto.
Qed.

Lemma sim_phase_shape fuel e c s : s_t s = O ->
  (exists s', seqSim fuel e c s = inl (Returned s')) \/
  (runSimulationChecker (exec c) = true /\ ctor_throws e c KSim = true /\
   seqSim fuel e c s = inr (leave_by_exception c)) \/
  (seqSim fuel e c s = inr Diverged /\ runSimulationChecker (exec c) = true) \/
  (first_simulation_interrupted e c (s_res s) (s_gen s) /\ seqSim fuel e c s = inr Terminated).
Proof.
  intros T. unfold seqSim, first_simulation_interrupted. rewrite T.
  destruct (runSimulationChecker (exec c)); cbn [negb]; [|eauto].
  destruct (ctor_throws e c KSim); [right; left; auto|].
  destruct (simLoop fuel e c 0 NoInformation None (s_res s) (s_gen s)) as [t q stm r g|q stm r g|] eqn:E; [eauto| |auto].
  apply simLoop_noinfo in E. destruct E as (_ & H1 & H2 & H3 & st & g1 & H4).
  right; right; right. pose proof H3 as Hi. apply interrupted_fired, fired_timeout in Hi. rewrite Hi.
  repeat split; auto; [|congruence]. unfold simulationsFinished in H1. now apply N.eqb_neq in H1.
Qed.

Lemma sim_phase_interrupted fuel e c s : s_t s = O ->
  first_simulation_interrupted e c (s_res s) (s_gen s) -> seqSim (S fuel) e c s = inr Terminated.
Proof.
  intros T (H1 & H2 & H3 & H4 & H5 & H6). unfold seqSim. rewrite T, H1, H2. cbn [negb].
  destruct (proj2 (simLoop_noinfo_iff fuel e c 0 None (s_res s) (s_gen s))) as (q & s' & r & g & E).
  { repeat split; auto. unfold simulationsFinished. now apply N.eqb_neq. }
  rewrite E. apply interrupted_fired, fired_timeout in H5. now rewrite H5.
Qed.

(** outcome analysis of the sequential flow *)
Lemma seq_outcome fuel e m : m_done m = false -> r_eq (m_res m) = NoInformation ->
  let c := m_cfg m in
  match checkSequential fuel e m with
  | Returned _ => True
  | Diverged => runSimulationChecker (exec c) = true /\ ctor_throws e c KSim = false
  | Thrown => hasTimeout c = false /\ ~ no_exceptions e c
  | Terminated => (first_simulation_interrupted e c (m_res m) (m_gen m)) \/ ~ no_exceptions e c
  | AssertFailed => e_ndebug e = false /\ runZXChecker (exec c) = true /\ e_transformable e = true /\
                    onlyZXCheckerConfigured c = false
  end.
Proof.
  intros D Q c. unfold checkSequential. fold c.
  set (s0 := mkSt 0 (m_done m) (m_checkers m) (m_res m) (m_gen m)).
  assert (HL : forall P, (hasTimeout c = false -> P) -> (hasTimeout c = true -> P) -> P)
    by (intros P; destruct (hasTimeout c); auto).
  assert (Hlev : ~ no_exceptions e c ->
     match finish_flow c (inr (@leave_by_exception (@st Stim Gen) c)) with
     | Returned _ => True
     | Diverged => runSimulationChecker (exec c) = true /\ ctor_throws e c KSim = false
     | Thrown => hasTimeout c = false /\ ~ no_exceptions e c
     | Terminated => (first_simulation_interrupted e c (m_res m) (m_gen m)) \/ ~ no_exceptions e c
     | AssertFailed => e_ndebug e = false /\ runZXChecker (exec c) = true /\ e_transformable e = true /\
                    onlyZXCheckerConfigured c = false
     end).
  { intros Hn. unfold leave_by_exception. destruct (hasTimeout c); cbn; auto. }
  destruct (sim_phase_shape fuel e c s0 eq_refl) as [[s1 E1]|[(H1 & H2 & E1)|[[E1 H1]|[H1 E1]]]];
    rewrite E1; cbn [bind].
  2:{ apply Hlev. intros (A & _). rewrite A in H2; [discriminate|assumption]. }
  2:{ cbn [finish_flow]. unfold seqSim in E1. rewrite H1 in E1. cbn [negb] in E1.
      destruct (ctor_throws e c KSim); [|auto]. unfold leave_by_exception in E1. destruct (hasTimeout c); discriminate. }
  2:{ cbn. now left. }
  destruct (exact_phase_shape KAlt (runAlternatingChecker (exec c)) (e_alt e) (negb (e_canHandle e)) e c s1)
    as [[s2 E2]|(H1 & _ & H2 & E2)]; rewrite E2; cbn [bind].
  2:{ apply Hlev. intros (_ & A & _). destruct (A H1) as [A1 A2]. rewrite A1, A2 in H2. destruct H2 as [H2|H2]; discriminate H2. }
  destruct (exact_phase_shape KCon (runConstructionChecker (exec c)) (e_con e) false e c s2)
    as [[s3 E3]|(H1 & _ & H2 & E3)]; rewrite E3; cbn [bind].
  2:{ apply Hlev. intros (_ & _ & A & _). rewrite (A H1) in H2. destruct H2 as [H2|H2]; discriminate H2. }
  destruct (zx_phase_shape e c s3) as [[s4 E4]|[(H1 & H2 & H3 & E4)|(H1 & H2 & H3 & H4 & H5 & H6 & E4)]];
    rewrite E4; cbn [finish_flow]; auto.
  right. intros (_ & _ & _ & A). rewrite (A H1) in H3. discriminate.
Qed.

Lemma c10_terminated fuel pf e m :
  choose_flow e (m_cfg m) = FSequential -> no_exceptions e (m_cfg m) ->
  (run (S fuel) pf e m = Terminated <->
   first_simulation_interrupted e (m_cfg m) (m_res m) (m_gen m)).
Proof.
  intros F NE. rewrite run_sequential by assumption. split.
  - intros H. pose proof (seq_outcome (S fuel) e (start_run m) eq_refl eq_refl) as HO.
    rewrite H in HO. cbn in HO. destruct HO as [HO|HO]; [|contradiction]. exact HO.
  - intros H. unfold checkSequential.
    rewrite (sim_phase_interrupted fuel e _ (mkSt 0 (m_done (start_run m)) (m_checkers (start_run m)) (m_res (start_run m)) (m_gen (start_run m))));
      [reflexivity|reflexivity|exact H].
Qed.

Lemma c10_no_timeout fuel pf e m :
  choose_flow e (m_cfg m) = FSequential -> no_exceptions e (m_cfg m) -> hasTimeout (m_cfg m) = false ->
  run fuel pf e m <> Terminated /\ run fuel pf e m <> Thrown.
Proof.
  intros F NE T. rewrite run_sequential by assumption.
  pose proof (seq_outcome fuel e (start_run m) eq_refl eq_refl) as HO.
  destruct (checkSequential fuel e (start_run m)); cbn in HO; split; try discriminate.
  - tauto.
  - exfalso. destruct HO as [HO|HO]; [|contradiction].
    destruct HO as (_ & _ & _ & _ & HI & _). apply interrupted_fired, fired_timeout in HI. congruence.
Qed.

Lemma c10_exceptions fuel pf e m :
  choose_flow e (m_cfg m) = FSequential -> hasTimeout (m_cfg m) = true -> run fuel pf e m <> Thrown.
Proof.
  intros F T H. rewrite run_sequential in H by assumption.
  pose proof (seq_outcome fuel e (start_run m) eq_refl eq_refl) as HO. rewrite H in HO.
  cbn in HO. destruct HO; congruence.
Qed.

Lemma c10_symbolic fuel pf e m :
  choose_flow e (m_cfg m) = FSymbolic -> e_zx_perm_ok e = true ->
  (run fuel pf e m = Terminated <->
   hasTimeout (m_cfg m) = true /\ e_transformable e = false /\ fired e (m_cfg m) 0 = false) /\
  run fuel pf e m <> Thrown /\ run fuel pf e m <> Diverged /\ run fuel pf e m <> AssertFailed.
Proof.
  intros F Z. rewrite run_symbolic by assumption. unfold checkSymbolic, reads_done.
  cbn [s_done s_t start_run m_cfg m_done orb tick].
  destruct (fired e (m_cfg m) 0) eqn:F0.
  - cbn. split; [|repeat split; discriminate]. split; [discriminate|]. intros (_ & _ & H). discriminate H.
  - rewrite Z. cbn [negb]. destruct (e_transformable e).
    + destruct (fired e (m_cfg m) 1); cbn; (split; [|repeat split; discriminate]);
      (split; [discriminate|]); intros (_ & H & _); discriminate H.
    + destruct (hasTimeout (m_cfg m)); cbn; (split; [|repeat split; discriminate]); split; auto; try discriminate.
      intros (H & _). discriminate H.
Qed.

(** *** C11 *)
Lemma c11_terminates fuel pf e c g pp :
  choose_flow e c = FSequential -> gen_supplies e g (maxSims (sim c)) -> (maxSims (sim c) < N.of_nat fuel)%N ->
  run fuel pf e (fresh c g pp) <> Diverged.
Proof.
  intros F G HF H. rewrite run_sequential in H by assumption. unfold checkSequential in H.
  set (s0 := mkSt 0 _ _ _ _) in H. cbn [start_run fresh m_cfg] in H.
  assert (Hs : (exists s', seqSim fuel e c s0 = inl (Returned s')) \/ seqSim fuel e c s0 = inr (leave_by_exception c) \/ seqSim fuel e c s0 = inr Terminated).
  { destruct (sim_phase_shape fuel e c s0 eq_refl) as [?|[(H1 & H2 & E1)|[[E1 H1]|[H1 E1]]]]; auto.
    exfalso. unfold seqSim in E1. rewrite H1 in E1. cbn [negb] in E1.
    destruct (ctor_throws e c KSim).
    { unfold leave_by_exception in E1. destruct (hasTimeout c); discriminate. }
    destruct (simLoop _ _ _ _ _ _ _ _) eqn:El; try discriminate E1.
    - destruct (hasTimeout c); discriminate.
    - revert El. apply simLoop_terminates; [eapply gen_supplies_le; [exact G|cbn; lia]|cbn; lia|cbn; lia]. }
  destruct Hs as [[s1 E1]|[E1|E1]]; rewrite E1 in H; cbn [bind] in H; [| |discriminate H].
  2:{ unfold leave_by_exception in H. destruct (hasTimeout c); discriminate. }
  destruct (exact_phase_shape KAlt (runAlternatingChecker (exec c)) (e_alt e) (negb (e_canHandle e)) e c s1)
    as [[s2 E2]|(H1 & _ & H2 & E2)]; rewrite E2 in H; cbn [bind] in H.
  2:{ unfold leave_by_exception in H. destruct (hasTimeout c); discriminate. }
  destruct (exact_phase_shape KCon (runConstructionChecker (exec c)) (e_con e) false e c s2)
    as [[s3 E3]|(H1 & _ & H2 & E3)]; rewrite E3 in H; cbn [bind] in H.
  2:{ unfold leave_by_exception in H. destruct (hasTimeout c); discriminate. }
  destruct (zx_phase_shape e c s3) as [[s4 E4]|[(H1 & H2 & H3 & E4)|(H1 & H2 & H3 & H4 & H5 & H6 & E4)]];
    rewrite E4 in H; discriminate H.
Qed.

(** more fuel never changes an answer *)
Lemma simLoop_fuel fuel : forall k e c t q s r g,
  simLoop fuel e c t q s r g <> LDiverged ->
  simLoop (fuel + k) e c t q s r g = simLoop fuel e c t q s r g.
Proof.
  induction fuel as [|fuel IH]; intros k e c t q s r g H; [now cbn in H|].
  cbn [simLoop Nat.add] in *.
  destruct (simulationsFinished c r); [reflexivity|].
  destruct (fired e c t); [reflexivity|].
  destruct (e_gen e g) as [[st g1]|]; [|reflexivity].
  destruct (if interrupted e c (S t) then q else scrit (e_sim e st)); auto.
Qed.

Lemma c11_fuel_irrelevant fuel k pf e m :
  choose_flow e (m_cfg m) = FSequential -> run fuel pf e m <> Diverged ->
  run (fuel + k) pf e m = run fuel pf e m.
Proof.
  intros F H. rewrite !run_sequential in * by assumption. unfold checkSequential in *.
  assert (E : forall s, seqSim (fuel + k) e (m_cfg (start_run m)) s = seqSim fuel e (m_cfg (start_run m)) s \/
     seqSim fuel e (m_cfg (start_run m)) s = inr Diverged).
  { intros s. unfold seqSim. destruct (runSimulationChecker _); cbn [negb]; [|auto].
    destruct (ctor_throws _ _ _); [auto|].
    destruct (simLoop fuel e (m_cfg (start_run m)) (s_t s) NoInformation None (s_res s) (s_gen s)) eqn:El; [| |now right].
    - left. rewrite simLoop_fuel, El; [reflexivity|]. rewrite El. discriminate.
    - left. rewrite simLoop_fuel, El; [reflexivity|]. rewrite El. discriminate. }
  destruct (E (mkSt 0 (m_done (start_run m)) (m_checkers (start_run m)) (m_res (start_run m)) (m_gen (start_run m)))) as [->|E1]; [reflexivity|].
  rewrite E1 in H. cbn in H. congruence.
Qed.

Lemma c11_rerun fuel pf e m :
  choose_flow e (m_cfg m) = FSequential -> onlySimulationCheckerConfigured (m_cfg m) = true ->
  ctor_throws e (m_cfg m) KSim = false ->
  r_performed (m_res m) = maxSims (sim (m_cfg m)) ->
  exists m', run (S fuel) pf e m = Returned m' /\
    r_eq (m_res m') = NoInformation /\ r_performed (m_res m') = r_performed (m_res m) /\
    r_started (m_res m') = r_started (m_res m) /\ m_gen m' = m_gen m.
Proof.
  intros F O C P. rewrite run_sequential by assumption. destruct (only_sim_flags _ O) as (Os & Oa & Oc & Oz).
  unfold checkSequential, seqSim, seqExact, seqZX. cbn [start_run m_cfg].
  rewrite Os, Oa, Oc, Oz, C. cbn [negb start_run m_cfg s_t s_res s_gen s_done s_chk m_res m_gen m_done m_checkers simLoop].
  assert (simulationsFinished (m_cfg m) (set_eq NoInformation (m_res m)) = true) as ->.
  { unfold simulationsFinished. cbn. now rewrite P, N.eqb_refl. }
  cbn. eexists. split; [reflexivity|]. cbn. auto.
Qed.

Lemma c11_lowered fuel pf e m :
  choose_flow e (m_cfg m) = FSequential -> runSimulationChecker (exec (m_cfg m)) = true ->
  ctor_throws e (m_cfg m) KSim = false -> hasTimeout (m_cfg m) = false ->
  (forall s, e_sim e s <> SNotEquivalent) ->
  (maxSims (sim (m_cfg m)) < r_performed (m_res m))%N ->
  run fuel pf e m = Diverged.
Proof.
  intros F Os C T S P. rewrite run_sequential by assumption.
  unfold checkSequential, seqSim. cbn [start_run m_cfg]. rewrite Os, C. cbn [negb s_t s_res s_gen m_res m_gen].
  rewrite simLoop_diverges; auto. intros t. now apply hasTimeout_false_fired.
Qed.

(** *** C12 *)
Lemma c12_reset fuel pf e m :
  run fuel pf e (reset e m) = run fuel pf e (fresh (m_cfg m) (e_clear e (m_gen m)) 0).
Proof. reflexivity. Qed.

Definition res_pp (p : Q) r : results Stim :=
  mkResults (r_eq r) (r_started r) (r_performed r) (r_cexIn r) (r_cexOut r) p.
Definition st_pp (p : Q) (s : @st Stim Gen) := mkSt (s_t s) (s_done s) (s_chk s) (res_pp p (s_res s)) (s_gen s).
Definition oo_pp (p : Q) (x : outcome (@st Stim Gen) + outcome (@st Stim Gen)) :=
  let f := fun o => match o with Returned s => Returned (st_pp p s) | Thrown => Thrown | Terminated => Terminated
             | Diverged => Diverged | AssertFailed => AssertFailed end in
  match x with inl o => inl (f o) | inr o => inr (f o) end.
Definition lx_pp (p : Q) (x : @loop_exit Stim Gen) :=
  match x with LDone t q s r g => LDone t q s (res_pp p r) g | LNoInfo q s r g => LNoInfo q s (res_pp p r) g
             | LDiverged => LDiverged end.

Lemma simLoop_pp p fuel : forall e c t q s r g,
  simLoop fuel e c t q s (res_pp p r) g = lx_pp p (simLoop fuel e c t q s r g).
Proof.
  induction fuel as [|fuel IH]; intros; [reflexivity|]. cbn [simLoop].
  change (simulationsFinished c (res_pp p r)) with (simulationsFinished c r).
  destruct (simulationsFinished c r); [reflexivity|].
  destruct (fired e c t); [reflexivity|].
  destruct (e_gen e g) as [[stm g1]|]; [|reflexivity].
  destruct (if interrupted e c (S t) then q else scrit (e_sim e stm)); try reflexivity;
  rewrite <- IH; reflexivity.
Qed.
Lemma seqSim_pp p fuel e c s : seqSim fuel e c (st_pp p s) = oo_pp p (seqSim fuel e c s).
Proof.
  unfold seqSim. destruct (runSimulationChecker (exec c)); [|reflexivity]. cbn [negb].
  destruct (ctor_throws e c KSim). { unfold leave_by_exception. now destruct (hasTimeout c). }
  cbn [st_pp s_t s_res s_gen]. rewrite simLoop_pp.
  destruct (simLoop fuel e c (s_t s) NoInformation None (s_res s) (s_gen s)) as [t q stm r g|q stm r g|]; cbn [lx_pp]; [| |reflexivity].
  - cbn [res_pp r_eq]. destruct (r_eq r); reflexivity.
  - now destruct (hasTimeout c).
Qed.
Lemma seqExact_pp p k en v th e c s : seqExact k en v th e c (st_pp p s) = oo_pp p (seqExact k en v th e c s).
Proof.
  unfold seqExact. destruct en; [|reflexivity]. cbn [negb].
  change (reads_done e c (st_pp p s)) with (reads_done e c s). destruct (reads_done e c s); [reflexivity|].
  destruct (ctor_throws e c k). { unfold leave_by_exception. now destruct (hasTimeout c). }
  change (reads_done e c (tick (st_pp p s))) with (reads_done e c (tick s)). destruct (reads_done e c (tick s)); [reflexivity|].
  destruct th. { unfold leave_by_exception. now destruct (hasTimeout c). }
  cbn [tick st_pp s_t]. destruct (if interrupted e c (S (S (s_t s))) then NoInformation else mcrit v); reflexivity.
Qed.
Lemma seqZX_pp p e c s : seqZX e c (st_pp p s) = oo_pp p (seqZX e c s).
Proof.
  unfold seqZX. destruct (runZXChecker (exec c)); [|reflexivity]. cbn [negb].
  change (reads_done e c (st_pp p s)) with (reads_done e c s). destruct (reads_done e c s); [reflexivity|].
  destruct (e_transformable e); [|destruct (onlyZXCheckerConfigured c); reflexivity].
  destruct (e_zx_perm_ok e); [|reflexivity]. cbn [negb].
  change (reads_done e c (tick (st_pp p s))) with (reads_done e c (tick s)). destruct (reads_done e c (tick s)); [reflexivity|].
  cbn [tick st_pp s_t set_done add_checker s_res with_res res_pp r_eq].
  destruct (if interrupted e c (S (S (s_t s))) then NoInformation else zcrit (e_ancilla e) (e_zx e)); try reflexivity;
  repeat match goal with |- context [if ?b then _ else _] => destruct b end; reflexivity.
Qed.

(** apart from the preprocessing time (which reset() zeroes), a reset manager and a fresh one give the same result *)
Lemma c12_same_but_preproc fuel pf e c g pp :
  choose_flow e c <> FParallel ->
  run fuel pf e (fresh c g pp) = omap_pp pp (run fuel pf e (fresh c g 0)).
Proof.
  intros NP. unfold run. cbn [fresh m_cfg start_run m_gen m_checkers m_res].
  destruct (choose_flow e c); try reflexivity; [|congruence|].
  - unfold checkSequential. cbn [start_run m_cfg fresh m_done m_checkers m_res m_gen].
    change (mkSt 0 false [] (set_eq NoInformation {| r_eq := NoInformation; r_started := 0; r_performed := 0; r_cexIn := None; r_cexOut := None; r_preproc := pp |}) g)
      with (st_pp pp (mkSt 0 false [] (set_eq NoInformation {| r_eq := NoInformation; r_started := 0; r_performed := 0; r_cexIn := @None Stim; r_cexOut := None; r_preproc := 0 |}) g)).
    rewrite seqSim_pp.
    destruct (seqSim fuel e c _) as [o|o]; [|destruct o; reflexivity].
    destruct o as [s1| | | |]; try reflexivity. cbn [oo_pp bind].
    rewrite seqExact_pp. destruct (seqExact KAlt _ _ _ e c s1) as [o|o]; [|destruct o; reflexivity].
    destruct o as [s2| | | |]; try reflexivity. cbn [oo_pp bind].
    rewrite seqExact_pp. destruct (seqExact KCon _ _ _ e c s2) as [o|o]; [|destruct o; reflexivity].
    destruct o as [s3| | | |]; try reflexivity. cbn [oo_pp bind].
    rewrite seqZX_pp. destruct (seqZX e c s3) as [o|o]; destruct o; reflexivity.
  - unfold checkSymbolic. cbn [start_run m_cfg fresh m_done m_checkers m_res m_gen].
    unfold reads_done. cbn [s_done s_t orb tick].
    destruct (fired e c 0); [reflexivity|]. destruct (e_transformable e); [|destruct (hasTimeout c); reflexivity].
    destruct (e_zx_perm_ok e); [|reflexivity]. cbn [negb]. destruct (fired e c 1); reflexivity.
Qed.

(** without reset the counters accumulate *)
Lemma c12_accumulate fuel pf e m m' :
  choose_flow e (m_cfg m) = FSequential -> run fuel pf e m = Returned m' ->
  exists l, draws e (m_gen m) l (m_gen m') /\
  r_started (m_res m') = (r_started (m_res m) + N.of_nat (length l))%N /\
  r_performed (m_res m') = (r_performed (m_res m) + N.of_nat (length l))%N.
Proof.
  intros F R. rewrite run_sequential in R by assumption.
  apply seq_summary in R; [|reflexivity|reflexivity]. destruct R as (_ & l & H & _ & H1 & H2 & _).
  exists l. repeat split; auto.
Qed.

(** *** C14 *)
Lemma seqExact_decides k v e c s :
  hasTimeout c = false -> s_done s = false -> ctor_throws e c k = false ->
  exists s', seqExact k true v false e c s = inl (Returned s') /\ s_done s' = true /\
             r_eq (s_res s') = mcrit v.
Proof.
  intros T D C. unfold seqExact, reads_done. cbn [negb]. rewrite D, C.
  rewrite !hasTimeout_false_fired, hasTimeout_false_int by assumption.
  cbn [orb tick s_done]. rewrite D. cbn [orb].
  destruct v; cbn; eexists; repeat split.
Qed.
Lemma seqExact_skip k en v th e c s :
  s_done s = true ->
  exists s', seqExact k en v th e c s = inl (Returned s') /\ s_done s' = true /\ s_res s' = s_res s /\ s_gen s' = s_gen s.
Proof.
  intros D. unfold seqExact, reads_done. destruct en; cbn [negb]; [|eauto]. rewrite D. cbn. eexists. repeat split; auto.
Qed.
Lemma seqZX_skip e c s :
  s_done s = true -> exists s', seqZX e c s = inl (Returned s') /\ s_done s' = true /\ s_res s' = s_res s.
Proof.
  intros D. unfold seqZX, reads_done. destruct (runZXChecker (exec c)); cbn [negb]; [|eauto]. rewrite D. cbn. eexists. repeat split; auto.
Qed.

Lemma sim_not_refuting fuel e c s :
  hasTimeout c = false -> s_done s = false -> onlySimulationCheckerConfigured c = false ->
  (runSimulationChecker (exec c) = true -> ctor_throws e c KSim = false /\
     gen_supplies e (s_gen s) (maxSims (sim c) - r_performed (s_res s)) /\ (forall x, drawn_from e (s_gen s) x -> e_sim e x <> SNotEquivalent)) ->
  r_eq (s_res s) = NoInformation ->
  (r_performed (s_res s) <= maxSims (sim c))%N ->
  (maxSims (sim c) - r_performed (s_res s) < N.of_nat fuel)%N ->
  exists s', seqSim fuel e c s = inl (Returned s') /\ s_done s' = false.
Proof.
  intros T D O H Q B HF. unfold seqSim.
  destruct (runSimulationChecker (exec c)) eqn:Es; cbn [negb]; [|eauto].
  destruct (H eq_refl) as (C & G & R). rewrite C.
  destruct (simLoop fuel e c (s_t s) NoInformation None (s_res s) (s_gen s)) as [t q stm r g|q stm r g|] eqn:El.
  - eexists; split; [reflexivity|]. cbn [s_done]. rewrite D, O. cbn [orb andb]. rewrite orb_false_r.
    apply simLoop_done in El; [|discriminate|rewrite Q; discriminate].
    destruct El as (l & Hd & _ & _ & _ & _ & _ & _ & _ & _ & [[_ E]|[(l0 & x & -> & _ & Ex & _)|(l0 & x & _ & E & _)]]).
    + now rewrite E, Q.
    + exfalso. apply (R x); [exists l0, g; assumption|assumption].
    + now rewrite E.
  - exfalso. apply simLoop_noinfo in El. destruct El as (_ & _ & _ & HI & _).
    rewrite hasTimeout_false_int in HI by assumption. discriminate.
  - exfalso. revert El. now apply simLoop_terminates.
Qed.

Lemma c14_alt fuel pf e c g pp :
  choose_flow e c = FSequential -> hasTimeout c = false -> (maxSims (sim c) < N.of_nat fuel)%N ->
  sims_do_not_refute e c g ->
  runAlternatingChecker (exec c) = true -> ctor_throws e c KAlt = false -> e_canHandle e = true ->
  exists m', run fuel pf e (fresh c g pp) = Returned m' /\ r_eq (m_res m') = mcrit (e_alt e).
Proof.
  intros F T HF S A C CH. rewrite run_sequential by assumption. unfold checkSequential.
  cbn [start_run fresh m_cfg m_done m_checkers m_res m_gen].
  set (s0 := mkSt 0 _ _ _ _).
  assert (S' : runSimulationChecker (exec c) = true -> ctor_throws e c KSim = false /\
     gen_supplies e (s_gen s0) (maxSims (sim c) - r_performed (s_res s0)) /\ (forall x, drawn_from e (s_gen s0) x -> e_sim e x <> SNotEquivalent)).
  { intros R. destruct (S R) as (S1 & S2 & S3). split; [exact S1|]. split; [|exact S3]. cbn. now rewrite N.sub_0_r. }
  destruct (sim_not_refuting fuel e c s0) as (s1 & E1 & D1); auto; try (cbn; lia).
  { unfold onlySimulationCheckerConfigured. rewrite A. cbn. now rewrite !andb_false_r. }
  rewrite E1. cbn [bind]. rewrite A, CH.
  destruct (seqExact_decides KAlt (e_alt e) e c s1 T D1 C) as (s2 & E2 & D2 & Q2).
  cbn [negb]. rewrite E2. cbn [bind].
  destruct (seqExact_skip KCon (runConstructionChecker (exec c)) (e_con e) false e c s2 D2) as (s3 & E3 & D3 & Q3 & _).
  rewrite E3. cbn [bind]. destruct (seqZX_skip e c s3 D3) as (s4 & E4 & D4 & Q4). rewrite E4.
  cbn. eexists. split; [reflexivity|]. cbn. now rewrite Q4, Q3.
Qed.

Lemma c14_con fuel pf e c g pp :
  choose_flow e c = FSequential -> hasTimeout c = false -> (maxSims (sim c) < N.of_nat fuel)%N ->
  sims_do_not_refute e c g ->
  runAlternatingChecker (exec c) = false ->
  runConstructionChecker (exec c) = true -> ctor_throws e c KCon = false ->
  exists m', run fuel pf e (fresh c g pp) = Returned m' /\ r_eq (m_res m') = mcrit (e_con e).
Proof.
  intros F T HF S A Co C. rewrite run_sequential by assumption. unfold checkSequential.
  cbn [start_run fresh m_cfg m_done m_checkers m_res m_gen].
  set (s0 := mkSt 0 _ _ _ _).
  assert (S' : runSimulationChecker (exec c) = true -> ctor_throws e c KSim = false /\
     gen_supplies e (s_gen s0) (maxSims (sim c) - r_performed (s_res s0)) /\ (forall x, drawn_from e (s_gen s0) x -> e_sim e x <> SNotEquivalent)).
  { intros R. destruct (S R) as (S1 & S2 & S3). split; [exact S1|]. split; [|exact S3]. cbn. now rewrite N.sub_0_r. }
  destruct (sim_not_refuting fuel e c s0) as (s1 & E1 & D1); auto; try (cbn; lia).
  { unfold onlySimulationCheckerConfigured. rewrite Co. cbn. reflexivity. }
  rewrite E1. cbn [bind]. rewrite A. unfold seqExact at 1. cbn [negb bind]. rewrite Co.
  destruct (seqExact_decides KCon (e_con e) e c s1 T D1 C) as (s2 & E2 & D2 & Q2).
  rewrite E2. cbn [bind]. destruct (seqZX_skip e c s2 D2) as (s4 & E4 & D4 & Q4). rewrite E4.
  cbn. eexists. split; [reflexivity|]. cbn. now rewrite Q4.
Qed.

(** *** C18 *)
Lemma c18_symbolic fuel pf e m m' :
  choose_flow e (m_cfg m) = FSymbolic -> run fuel pf e m = Returned m' ->
  let q := r_eq (m_res m') in
  (q = NoInformation \/ (e_transformable e = true /\ q = zcrit (e_ancilla e) (e_zx e))) /\
  (e_transformable e = false \/ fired e (m_cfg m) 0 = true -> q = NoInformation) /\
  (hasTimeout (m_cfg m) = false -> e_transformable e = true -> q = zcrit (e_ancilla e) (e_zx e)) /\
  q <> NotEquivalent /\ q <> ProbablyEquivalent /\ q <> EquivalentUpToPhase /\
  r_started (m_res m') = r_started (m_res m) /\ m_gen m' = m_gen m.
Proof.
  intros F R q. rewrite run_symbolic in R by assumption. unfold checkSymbolic, reads_done in R.
  cbn [s_done s_t start_run m_cfg m_done orb tick] in R.
  destruct (fired e (m_cfg m) 0) eqn:F0.
  { cbn in R. injection R as <-. unfold q. cbn. repeat split; auto; try discriminate.
    intros T. rewrite hasTimeout_false_fired in F0 by assumption. discriminate. }
  destruct (e_transformable e).
  2:{ destruct (hasTimeout (m_cfg m)); cbn in R; [discriminate|]. injection R as <-. unfold q. cbn.
      repeat split; auto; discriminate. }
  destruct (e_zx_perm_ok e); cbn [negb] in R; [|discriminate].
  destruct (fired e (m_cfg m) 1) eqn:F1.
  { cbn in R. injection R as <-. unfold q. cbn. repeat split; auto; try discriminate.
    intros T. rewrite hasTimeout_false_fired in F1 by assumption. discriminate. }
  destruct (interrupted e (m_cfg m) 2) eqn:F2.
  { cbn in R. injection R as <-. unfold q. cbn. repeat split; auto; try discriminate.
    intros T. rewrite hasTimeout_false_int in F2 by assumption. discriminate. }
  cbn in R. injection R as <-. unfold q. cbn.
  split; [right; auto|]. split; [intros [?|?]; discriminate|]. split; [auto|].
  destruct (e_zx e), (e_ancilla e); cbn; repeat split; discriminate.
Qed.

(** *** C13 *)
Lemma c13_nothing fuel pf e m :
  anythingToExecute (m_cfg m) = false ->
  run fuel pf e m = Returned (start_run m).
Proof. intros H. unfold run, choose_flow. now rewrite H. Qed.
Lemma c13_empty fuel pf e m :
  anythingToExecute (m_cfg m) = true -> e_empty e = true ->
  exists m', run fuel pf e m = Returned m' /\ r_eq (m_res m') = Equivalent /\
    m_checkers m' = m_checkers m /\ m_gen m' = m_gen m /\ r_started (m_res m') = r_started (m_res m).
Proof. intros H E. unfold run, choose_flow. rewrite H, E. cbn. eexists; split; [reflexivity|]. cbn. auto. Qed.

(** *** assertion at cpp:557 *)
Lemma assert_exact fuel pf e c g pp :
  choose_flow e c = FSequential -> hasTimeout c = false -> gen_supplies e g (maxSims (sim c)) ->
  (maxSims (sim c) < N.of_nat fuel)%N -> no_exceptions e c ->
  (run fuel pf e (fresh c g pp) = AssertFailed <->
   e_ndebug e = false /\ runSimulationChecker (exec c) = true /\ maxSims (sim c) = 0%N /\
   runAlternatingChecker (exec c) = false /\ runConstructionChecker (exec c) = false /\
   runZXChecker (exec c) = true /\ e_transformable e = true /\ e_zx e = ZFail /\ e_ancilla e = true).
Proof.
  intros F T G HF (N1 & N2 & N3 & N4). rewrite run_sequential by assumption. unfold checkSequential.
  cbn [start_run fresh m_cfg m_done m_checkers m_res m_gen].
  set (s0 := mkSt 0 _ _ _ _).
  assert (Hlev : forall s, seqZX e c s = inr AssertFailed -> s_done s = false /\ r_eq (s_res s) = NoInformation /\
     e_ndebug e = false /\ runZXChecker (exec c) = true /\ e_transformable e = true /\ onlyZXCheckerConfigured c = false /\ e_zx e = ZFail /\ e_ancilla e = true).
  { intros s E. destruct (zx_phase_shape e c s) as [[s4 E4]|[(H1 & H2 & H3 & E4)|(H1 & H2 & H3 & H4 & H5 & H6 & E4)]]; try congruence.
    repeat split; auto.
    all: unfold seqZX, reads_done in E; rewrite H1, H2, (N4 H1), H6 in E;
      rewrite !hasTimeout_false_fired, hasTimeout_false_int in E by assumption;
      cbn [negb orb tick s_done] in E; rewrite H6 in E; cbn [orb] in E;
      destruct (e_zx e), (e_ancilla e); try reflexivity; cbn in E; try discriminate;
      rewrite H4 in E; discriminate. }
  split.
  - intros H.
    destruct (sim_phase_shape fuel e c s0 eq_refl) as [[s1 E1]|[(H1 & H2 & E1)|[[E1 H1]|[H1 E1]]]];
      rewrite E1 in H; cbn [bind] in H; try discriminate H.
    2:{ unfold leave_by_exception in H. rewrite T in H. discriminate. }
    destruct (exact_phase_shape KAlt (runAlternatingChecker (exec c)) (e_alt e) (negb (e_canHandle e)) e c s1)
      as [[s2 E2]|(H1 & _ & H2 & E2)]; rewrite E2 in H; cbn [bind] in H.
    2:{ unfold leave_by_exception in H. rewrite T in H. discriminate. }
    destruct (exact_phase_shape KCon (runConstructionChecker (exec c)) (e_con e) false e c s2)
      as [[s3 E3]|(H1 & _ & H2 & E3)]; rewrite E3 in H; cbn [bind] in H.
    2:{ unfold leave_by_exception in H. rewrite T in H. discriminate. }
    assert (HZ : seqZX e c s3 = inr AssertFailed).
    { destruct (seqZX e c s3) as [[]|[]] eqn:EZ; cbn in H; try discriminate; auto.
      exfalso. destruct (zx_phase_shape e c s3) as [[? E4]|[(? & ? & ? & E4)|(? & ? & ? & ? & ? & ? & E4)]]; congruence. }
    apply Hlev in HZ. destruct HZ as (D3 & Q3 & Z1 & Z2 & Z3 & Z4 & Z5 & Z6).
    apply seqExact_inl in E3. destruct E3 as (_ & _ & _ & _ & _ & _ & [(R3 & D3' & X3)|(_ & _ & _ & _ & D & _)]); [|congruence].
    apply seqExact_inl in E2. destruct E2 as (_ & _ & _ & _ & _ & _ & [(R2 & D2' & X2)|(_ & _ & _ & _ & D & _)]); [|congruence].
    rewrite !hasTimeout_false_fired in X2, X3 by assumption.
    assert (A0 : runAlternatingChecker (exec c) = false)
      by (destruct (runAlternatingChecker (exec c)); [destruct (X2 eq_refl); congruence|auto]).
    assert (C0 : runConstructionChecker (exec c) = false)
      by (destruct (runConstructionChecker (exec c)); [destruct (X3 eq_refl); congruence|auto]).
    assert (S0 : runSimulationChecker (exec c) = true).
    { unfold onlyZXCheckerConfigured in Z4. rewrite A0, C0, Z2 in Z4. now destruct (runSimulationChecker (exec c)). }
    repeat split; auto.
    apply seqSim_inl in E1; [|discriminate]. destruct E1 as [[? _]|[_ (t & q & stm & r & El & _ & _ & _ & Er)]]; [congruence|].
    apply simLoop_done in El; [|discriminate|discriminate].
    destruct El as (l & _ & _ & HP & _ & _ & _ & _ & _ & HX & HL).
    assert (Q1 : r_eq r = NoInformation).
    { rewrite R3, R2, Er in Q3. destruct (r_eq r) eqn:Eq; cbn in Q3; congruence. }
    destruct HX as [HX|[HX|HX]]; [congruence| |rewrite hasTimeout_false_fired in HX by assumption; discriminate].
    destruct HL as [[-> _]|[(? & ? & _ & HL & _)|(? & ? & _ & HL & _)]]; [|congruence|congruence].
    unfold simulationsFinished in HX. apply N.eqb_eq in HX. cbn in HP. congruence.
  - intros (H1 & H2 & H3 & H4 & H5 & H6 & H7 & H8 & H9).
    unfold seqSim. rewrite H2, (N1 H2). cbn [negb]. destruct fuel as [|fuel]; [lia|]. cbn [simLoop].
    assert (simulationsFinished c (s_res s0) = true) as -> by (unfold simulationsFinished; cbn; now rewrite H3).
    cbn [bind s_res s_done r_eq s0 set_eq criterion_eqb orb].
    assert (onlySimulationCheckerConfigured c = false) as ->
      by (unfold onlySimulationCheckerConfigured; rewrite H6; cbn; now rewrite !andb_false_r).
    cbn [andb orb bind]. rewrite H4, H5. unfold seqExact. cbn [negb bind].
    unfold seqZX, reads_done. rewrite H6, H7, (N4 H6), H8, H9, H1. cbn [negb orb s_done tick].
    rewrite !hasTimeout_false_fired, hasTimeout_false_int by assumption. cbn [zcrit s_res set_done tick add_checker].
    assert (onlyZXCheckerConfigured c = false) as -> by (unfold onlyZXCheckerConfigured; rewrite H2; cbn; now rewrite !andb_false_r).
    reflexivity.
Qed.
End Proofs3.
