(** Theorems about run() in the sequential and symbolic flows, assembled from SeqProofs.v. *)
From Coq Require Import String List Bool NArith QArith Arith Lia.
From Verif Require Import Criterion Config EnumSpec EnumProofs SeqFlow SeqSpec SeqProofs.
Import ListNotations.
Local Open Scope list_scope.

Section Proofs2.
Context {Stim Gen : Type}.
Notation env := (env Stim Gen).
Notation mgr := (mgr Stim Gen).
Implicit Types (e : env) (m : mgr) (c : config) (r : results Stim) (g : Gen).

Lemma hasTimeout_false_fired e c t : hasTimeout c = false -> fired e c t = false.
Proof. unfold fired. now intros ->. Qed.
Lemma hasTimeout_false_int e c t : hasTimeout c = false -> interrupted e c t = false.
Proof. intros H. unfold interrupted. now rewrite hasTimeout_false_fired. Qed.

Lemma run_sequential fuel pf e m :
  choose_flow e (m_cfg m) = FSequential -> run fuel pf e m = checkSequential fuel e (start_run m).
Proof. intros H. unfold run. now rewrite H. Qed.
Lemma run_symbolic fuel pf e m :
  choose_flow e (m_cfg m) = FSymbolic -> run fuel pf e m = checkSymbolic e (start_run m).
Proof. intros H. unfold run. now rewrite H. Qed.

Definition pe_justified e c (l : list Stim) : Prop :=
  exists l0 x, l = l0 ++ [x] /\ Forall (nonref e) l0 /\
               (nonref e x \/ (hasTimeout c = true /\ l0 <> [])).

(** everything a normal return of the sequential flow tells *)
Lemma seq_summary fuel e m m' :
  checkSequential fuel e m = Returned m' -> r_eq (m_res m) = NoInformation -> m_done m = false ->
  let c := m_cfg m in
  m_cfg m' = c /\
  exists l, draws e (m_gen m) l (m_gen m') /\
    (runSimulationChecker (exec c) = false -> l = []) /\
    r_started (m_res m') = (r_started (m_res m) + N.of_nat (length l))%N /\
    r_performed (m_res m') = (r_performed (m_res m) + N.of_nat (length l))%N /\
    ((r_performed (m_res m) <= maxSims (sim c))%N -> (r_performed (m_res m') <= maxSims (sim c))%N) /\
    ((exists l0 x, l = l0 ++ [x] /\ Forall (nonref e) l0 /\ e_sim e x = SNotEquivalent /\
        r_eq (m_res m') = NotEquivalent /\
        r_cexIn (m_res m') = (if storeCEXinput (sim c) then Some x else r_cexIn (m_res m)) /\
        r_cexOut (m_res m') = (if storeCEXoutput (sim c) then Some x else r_cexOut (m_res m))) \/
     (r_cexIn (m_res m') = r_cexIn (m_res m) /\ r_cexOut (m_res m') = r_cexOut (m_res m) /\
      (l = [] \/ pe_justified e c l) /\
      (runSimulationChecker (exec c) = true -> hasTimeout c = false ->
         simulationsFinished c (m_res m') = true) /\
      (from_exact_checker e c (r_eq (m_res m')) \/
       from_zx_checker e c (r_eq (m_res m')) \/
       r_eq (m_res m') = NoInformation \/
       (r_eq (m_res m') = ProbablyEquivalent /\ l <> [])))).
Proof.
  intros H Hni Hnd c. apply checkSequential_phases in H. fold c in H.
  destruct H as (s1 & s2 & s3 & s4 & H1 & H2 & H3 & H4 & HR & HG & HC & HD & HK).
  split; [assumption|].
  apply seqSim_inl in H1; [|cbn [s_res]; rewrite Hni; discriminate].
  apply seqExact_inl in H2. apply seqExact_inl in H3. apply seqZX_inl in H4.
  destruct H2 as (G2 & T2 & A2 & P2 & CI2 & CO2 & R2).
  destruct H3 as (G3 & T3 & A3 & P3 & CI3 & CO3 & R3).
  destruct H4 as (G4 & A4 & P4 & CI4 & CO4 & R4).
  rewrite HG, HR, A4, A3, A2, P4, P3, P2, CI4, CI3, CI2, CO4, CO3, CO2, G4, G3, G2.
  assert (Hfin : forall r1 r2, r_performed r1 = r_performed r2 ->
             simulationsFinished c r1 = simulationsFinished c r2)
    by (intros ? ? E; unfold simulationsFinished; now rewrite E).
  rewrite (Hfin (s_res s4) (s_res s1)) by congruence.
  assert (Hlater : forall q0, r_eq (s_res s1) = q0 ->
     from_exact_checker e c (r_eq (s_res s4)) \/
     from_zx_checker e c (r_eq (s_res s4)) \/
     r_eq (s_res s4) = NoInformation \/ r_eq (s_res s4) = q0).
  { intros q0 E0. unfold from_exact_checker.
    destruct R4 as [E4|[[_ E4]|[_ E4]]]; [|tauto|tauto]. rewrite E4.
    destruct R3 as [(E3 & _)|(En3 & _ & _ & _ & _ & E3)]; [rewrite E3|rewrite E3; tauto].
    destruct R2 as [(E2 & _)|(En2 & Th2 & _ & _ & _ & E2)]; [rewrite E2; tauto|rewrite E2; apply negb_false_iff in Th2; tauto]. }
  destruct H1 as [[Hs ->]|[Hs (t & q & stm & r & Hl & Et & Ek & Ed & Er)]].
  - exists []. cbn [s_gen s_res length] in *. change (N.of_nat 0) with 0%N. rewrite !N.add_0_r.
    repeat split; auto; [constructor|]. right. repeat split; auto; [congruence|].
    destruct (Hlater _ eq_refl) as [?|[?|[?|E]]]; auto.
    right; right; left. congruence.
  - cbn [s_t s_res s_gen s_done] in Hl, Ed.
    apply simLoop_done in Hl; [|discriminate|rewrite Hni; discriminate].
    destruct Hl as (l & Hd & HA & HP & HCI & HCO & _ & _ & HB & HX & HL).
    exists l. assert (Hno : forall P, runSimulationChecker (exec c) = false -> P) by congruence.
    assert (HSt : r_started (s_res s1) = r_started r) by (rewrite Er; destruct (r_eq r); reflexivity).
    assert (HPe : r_performed (s_res s1) = r_performed r) by (rewrite Er; destruct (r_eq r); reflexivity).
    rewrite HSt, HPe, HA, HP.
    split; [assumption|]. split; [intro; now apply Hno|]. split; [reflexivity|]. split; [reflexivity|].
    split; [intros Hb; rewrite <- HP; now apply HB|].
    destruct HL as [[-> E]|[(l0 & x & -> & E & Ex & Es & Ef)|(l0 & x & -> & E & Ef & Ex)]].
    + right. rewrite E, Hni in Er. rewrite Er, HCI, HCO. repeat split; auto.
      * intros _ Ht. destruct HX as [HX|[HX|HX]]; [congruence|assumption|].
        rewrite (hasTimeout_false_fired _ _ _ Ht) in HX. discriminate.
      * assert (E1 : r_eq (s_res s1) = NoInformation) by (rewrite Er; congruence).
        destruct (Hlater _ E1) as [?|[?|[?|?]]]; auto.
    + left. exists l0, x. rewrite E in Er. rewrite Er. cbn [set_cex r_cexIn r_cexOut].
      subst stm. rewrite HCI, HCO. repeat split; auto.
      assert (D1 : s_done s1 = true) by (rewrite Ed, E; cbn; now rewrite orb_true_r).
      assert (s_res s2 = s_res s1 /\ s_done s2 = true) as [E2 D2].
      { destruct R2 as [(? & ? & _)|(_ & _ & _ & D & _)]; [split; congruence|congruence]. }
      assert (s_res s3 = s_res s2 /\ s_done s3 = true) as [E3 D3].
      { destruct R3 as [(? & ? & _)|(_ & _ & _ & D & _)]; [split; congruence|congruence]. }
      destruct R4 as [E4|[[D _]|[D _]]]; [|congruence|congruence].
      rewrite E4, E3, E2, Er. exact E.
    + right. rewrite E in Er. rewrite Er, HCI, HCO. repeat split; auto.
      * right. exists l0, x. repeat split; auto. destruct Ex as [Ex|[Ex Hn]]; [now left|right].
        split; [now apply fired_timeout in Ex|auto].
      * intros _ Ht. destruct HX as [HX|[HX|HX]]; [congruence|assumption|].
        rewrite (hasTimeout_false_fired _ _ _ Ht) in HX. discriminate.
      * assert (E1 : r_eq (s_res s1) = ProbablyEquivalent) by (rewrite Er; congruence).
        destruct (Hlater _ E1) as [?|[?|[?|?]]]; auto.
        right; right; right. split; [assumption|]. now destruct l0.
Qed.

Lemma mcrit_range v : mcrit v = Equivalent \/ mcrit v = EquivalentUpToGlobalPhase \/ mcrit v = NotEquivalent.
Proof. destruct v; auto. Qed.
Lemma zcrit_range a v : zcrit a v = Equivalent \/ zcrit a v = EquivalentUpToGlobalPhase \/
  zcrit a v = NoInformation \/ zcrit a v = ProbablyNotEquivalent.
Proof. destruct v, a; cbn; auto. Qed.

Lemma from_exact_range e c q : from_exact_checker e c q ->
  q = Equivalent \/ q = EquivalentUpToGlobalPhase \/ q = NotEquivalent.
Proof. intros [(_ & _ & <-)|[_ <-]]; apply mcrit_range. Qed.
Lemma from_zx_range e c q : from_zx_checker e c q ->
  q = Equivalent \/ q = EquivalentUpToGlobalPhase \/ q = NoInformation \/ q = ProbablyNotEquivalent.
Proof. intros (_ & _ & <-); apply zcrit_range. Qed.

Lemma seq_of_run fuel pf e m m' :
  choose_flow e (m_cfg m) = FSequential -> run fuel pf e m = Returned m' ->
  checkSequential fuel e (start_run m) = Returned m'.
Proof. intros F R. now rewrite run_sequential in R. Qed.

Ltac summary F R l Hl :=
  apply seq_of_run in R; [|exact F];
  apply seq_summary in R; [|reflexivity|reflexivity];
  cbn [start_run m_cfg m_gen m_res m_done set_eq r_started r_performed r_cexIn r_cexOut r_eq] in R;
  destruct R as (Hcfg & l & Hl).

Lemma c01_source fuel pf e m m' :
  choose_flow e (m_cfg m) = FSequential -> run fuel pf e m = Returned m' ->
  let q := r_eq (m_res m') in
  (q = Equivalent \/ q = EquivalentUpToGlobalPhase ->
     from_exact_checker e (m_cfg m) q \/ from_zx_checker e (m_cfg m) q) /\
  (q = NotEquivalent -> from_exact_checker e (m_cfg m) q \/ refuted_by_simulation e (m_cfg m) (m_gen m)) /\
  q <> EquivalentUpToPhase.
Proof.
  intros F R q. summary F R l Hl.
  destruct Hl as (Hd & Hs & _ & _ & _ & [(l0 & x & -> & _ & Ex & Eq & _)|(_ & _ & _ & _ & Hq)]).
  - unfold q. rewrite Eq. repeat split; try discriminate; [intros [?|?]; discriminate|].
    intros _. right. split.
    + destruct (runSimulationChecker (exec (m_cfg m))); [reflexivity|].
      specialize (Hs eq_refl). now destruct l0.
    + exists x. split; [|assumption]. now exists l0, (m_gen m').
  - fold q in Hq. repeat split.
    + intros HE. destruct Hq as [?|[?|[Hq|[Hq _]]]]; auto; rewrite Hq in HE; destruct HE; discriminate.
    + intros HE. destruct Hq as [?|[Hz|[Hq|[Hq _]]]]; auto; [|congruence|congruence].
      exfalso. apply from_zx_range in Hz. rewrite HE in Hz. now destruct Hz as [?|[?|[?|?]]].
    + intros HE. destruct Hq as [Hq|[Hz|[Hq|[Hq _]]]]; [| |congruence|congruence].
      * apply from_exact_range in Hq. rewrite HE in Hq. now destruct Hq as [?|[?|?]].
      * apply from_zx_range in Hz. rewrite HE in Hz. now destruct Hz as [?|[?|[?|?]]].
Qed.

(** soundness relative to an arbitrary meaning of the verdicts *)
Lemma c01_sound (truth : criterion -> Prop) fuel pf e m m' :
  (runAlternatingChecker (exec (m_cfg m)) = true -> e_canHandle e = true -> truth (mcrit (e_alt e))) ->
  (runConstructionChecker (exec (m_cfg m)) = true -> truth (mcrit (e_con e))) ->
  (runZXChecker (exec (m_cfg m)) = true -> e_transformable e = true ->
     zcrit (e_ancilla e) (e_zx e) = Equivalent \/ zcrit (e_ancilla e) (e_zx e) = EquivalentUpToGlobalPhase ->
     truth (zcrit (e_ancilla e) (e_zx e))) ->
  (forall s, drawn_from e (m_gen m) s -> e_sim e s = SNotEquivalent -> truth NotEquivalent) ->
  choose_flow e (m_cfg m) = FSequential -> run fuel pf e m = Returned m' ->
  definitive (r_eq (m_res m')) -> truth (r_eq (m_res m')).
Proof.
  intros Ha Hc Hz Hs F R D. destruct (c01_source _ _ _ _ _ F R) as (H1 & H2 & H3).
  assert (Hex : from_exact_checker e (m_cfg m) (r_eq (m_res m')) -> truth (r_eq (m_res m'))).
  { intros [(E & E' & <-)|[E <-]]; auto. }
  assert (Hzx : r_eq (m_res m') = Equivalent \/ r_eq (m_res m') = EquivalentUpToGlobalPhase ->
     from_zx_checker e (m_cfg m) (r_eq (m_res m')) -> truth (r_eq (m_res m'))).
  { intros HE (E & Et & Ez). rewrite <- Ez in *. auto. }
  destruct D as [D|[D|[D|D]]].
  - destruct H1; auto.
  - destruct H1; auto.
  - contradiction.
  - destruct (H2 D) as [?|[_ (s & Hd & Hr)]]; auto. rewrite D. eauto.
Qed.

Lemma c03_pe fuel pf e m m' :
  choose_flow e (m_cfg m) = FSequential -> run fuel pf e m = Returned m' ->
  r_eq (m_res m') = ProbablyEquivalent ->
  exists l, draws e (m_gen m) l (m_gen m') /\
    r_performed (m_res m') = (r_performed (m_res m) + N.of_nat (length l))%N /\
    exists l0 x, l = l0 ++ [x] /\ Forall (nonref e) l0 /\
      (nonref e x \/ (hasTimeout (m_cfg m) = true /\ l0 <> [])).
Proof.
  intros F R Q. summary F R l Hl.
  destruct Hl as (Hd & _ & _ & HP & _ & [(l0 & x & _ & _ & _ & Eq & _)|(_ & _ & HJ & _ & Hq)]); [congruence|].
  exists l. repeat split; auto.
  destruct Hq as [Hq|[Hz|[Hq|[_ Hne]]]].
  - apply from_exact_range in Hq. rewrite Q in Hq. now destruct Hq as [?|[?|?]].
  - apply from_zx_range in Hz. rewrite Q in Hz. now destruct Hz as [?|[?|[?|?]]].
  - congruence.
  - destruct HJ as [?|HJ]; [contradiction|exact HJ].
Qed.

Lemma c03_pne fuel pf e m m' :
  choose_flow e (m_cfg m) = FSequential -> run fuel pf e m = Returned m' ->
  r_eq (m_res m') = ProbablyNotEquivalent ->
  runZXChecker (exec (m_cfg m)) = true /\ e_transformable e = true /\
  e_zx e = ZFail /\ e_ancilla e = false.
Proof.
  intros F R Q. summary F R l Hl.
  destruct Hl as (_ & _ & _ & _ & _ & [(l0 & x & _ & _ & _ & Eq & _)|(_ & _ & HJ & _ & Hq)]); [congruence|].
  destruct Hq as [Hq|[Hz|[Hq|[Hq Hne]]]]; try congruence.
  - apply from_exact_range in Hq. rewrite Q in Hq. now destruct Hq as [?|[?|?]].
  - destruct Hz as (E & Et & Ez). rewrite Q in Ez. destruct (e_zx e), (e_ancilla e); try discriminate. auto.
Qed.

Lemma c04_counts fuel pf e c g pp m' :
  choose_flow e c = FSequential -> run fuel pf e (fresh c g pp) = Returned m' ->
  r_started (m_res m') = r_performed (m_res m') /\
  (r_performed (m_res m') <= maxSims (sim c))%N /\
  exists l, draws e g l (m_gen m') /\ r_started (m_res m') = N.of_nat (length l).
Proof.
  intros F R. change (choose_flow e (m_cfg (fresh (Stim:=Stim) c g pp)) = FSequential) in F. summary F R l Hl.
  cbn [fresh m_cfg m_gen m_res r_started r_performed] in Hl.
  destruct Hl as (Hd & _ & HS & HP & HB & _). rewrite N.add_0_l in HS, HP.
  repeat split; [congruence|apply HB; lia|]. eauto.
Qed.

Lemma seqZX_off e c s s' :
  runZXChecker (exec c) = false -> seqZX e c s = inl (Returned s') -> s' = s.
Proof. unfold seqZX. intros ->. cbn. now intros [= <-]. Qed.
Lemma seqExact_off k v th e c s s' :
  seqExact k false v th e c s = inl (Returned s') -> s' = s.
Proof. unfold seqExact. cbn. now intros [= <-]. Qed.

Lemma only_sim_flags c : onlySimulationCheckerConfigured c = true ->
  runSimulationChecker (exec c) = true /\ runAlternatingChecker (exec c) = false /\
  runConstructionChecker (exec c) = false /\ runZXChecker (exec c) = false.
Proof.
  unfold onlySimulationCheckerConfigured.
  destruct (runConstructionChecker (exec c)), (runSimulationChecker (exec c)),
      (runAlternatingChecker (exec c)), (runZXChecker (exec c)); cbn; intros; try discriminate; auto.
Qed.

Lemma c04_only_sim fuel pf e c g pp m' :
  choose_flow e c = FSequential -> onlySimulationCheckerConfigured c = true -> hasTimeout c = false ->
  run fuel pf e (fresh c g pp) = Returned m' -> r_eq (m_res m') <> NotEquivalent ->
  r_performed (m_res m') = maxSims (sim c) /\ r_eq (m_res m') = ProbablyEquivalent.
Proof.
  intros F O T R Q. destruct (only_sim_flags _ O) as (Os & Oa & Oc & Oz).
  assert (M : (0 < maxSims (sim c))%N).
  { unfold choose_flow, anythingToExecute in F. rewrite Os, Oa, Oc, Oz in F.
    cbn in F. destruct (N.ltb 0 (maxSims (sim c))) eqn:E; [now apply N.ltb_lt in E|discriminate]. }
  apply seq_of_run in R; [|exact F]. apply checkSequential_phases in R.
  destruct R as (s1 & s2 & s3 & s4 & H1 & H2 & H3 & H4 & HR & _).
  cbn [start_run m_cfg fresh] in H1, H2, H3, H4. rewrite Oa in H2. rewrite Oc in H3.
  apply seqExact_off in H2. apply seqExact_off in H3. apply seqZX_off in H4; [|assumption]. subst s4 s3 s2.
  apply seqSim_inl in H1; [|discriminate].
  destruct H1 as [[Hs _]|[_ (t & q & stm & r & Hlp & Et & Ek & Ed & Er)]]; [congruence|].
  apply simLoop_done in Hlp; [|discriminate|discriminate].
  destruct Hlp as (l1 & _ & _ & HP1 & _ & _ & _ & _ & _ & HX & HL).
  cbn [s_res m_res set_eq r_performed] in HP1.
  assert (P1 : r_performed (s_res s1) = r_performed r) by (rewrite Er; destruct (r_eq r); reflexivity).
  assert (Q1 : r_eq (s_res s1) = r_eq r) by (rewrite Er; destruct (r_eq r) eqn:E; cbn; auto).
  rewrite HR, P1, Q1. rewrite HR, Q1 in Q.
  assert (Hf : simulationsFinished c r = true).
  { destruct HX as [?|[?|HX]]; [contradiction|assumption|].
    rewrite (hasTimeout_false_fired _ _ _ T) in HX. discriminate. }
  unfold simulationsFinished in Hf. apply N.eqb_eq in Hf. split; [assumption|].
  destruct HL as [[-> Er0]|[(l0 & x & -> & Er0 & _)|(l0 & x & -> & Er0 & _)]]; auto; [|congruence].
  cbn in HP1. lia.
Qed.

Lemma c05_cex fuel pf e m m' :
  choose_flow e (m_cfg m) = FSequential -> run fuel pf e m = Returned m' ->
  r_cexIn (m_res m) = None -> r_cexOut (m_res m) = None ->
  (forall x, r_cexIn (m_res m') = Some x ->
     storeCEXinput (sim (m_cfg m)) = true /\ r_eq (m_res m') = NotEquivalent /\
     e_sim e x = SNotEquivalent /\ exists l0, draws e (m_gen m) (l0 ++ [x]) (m_gen m')) /\
  (forall x, r_cexOut (m_res m') = Some x ->
     storeCEXoutput (sim (m_cfg m)) = true /\ r_eq (m_res m') = NotEquivalent /\
     e_sim e x = SNotEquivalent /\ exists l0, draws e (m_gen m) (l0 ++ [x]) (m_gen m')) /\
  (r_eq (m_res m') = NotEquivalent -> ~ from_exact_checker e (m_cfg m) NotEquivalent ->
     exists x l0, draws e (m_gen m) (l0 ++ [x]) (m_gen m') /\ Forall (nonref e) l0 /\
       e_sim e x = SNotEquivalent /\
       r_cexIn (m_res m') = (if storeCEXinput (sim (m_cfg m)) then Some x else None) /\
       r_cexOut (m_res m') = (if storeCEXoutput (sim (m_cfg m)) then Some x else None)).
Proof.
  intros F R Ni No. summary F R l Hl.
  destruct Hl as (Hd & _ & _ & _ & _ & [(l0 & x & -> & Hf & Ex & Eq & CI & CO)|(CI & CO & _ & _ & Hq)]).
  - rewrite CI, CO, Eq, Ni, No. split; [|split].
    + intros y Hy. destruct (storeCEXinput (sim (m_cfg m))); [|discriminate].
      injection Hy as <-. repeat split; eauto.
    + intros y Hy. destruct (storeCEXoutput (sim (m_cfg m))); [|discriminate].
      injection Hy as <-. repeat split; eauto.
    + intros _ _. exists x, l0. auto 10.
  - rewrite CI, CO, Ni, No. split; [intros ? [=]|]. split; [intros ? [=]|].
    intros E Hn. exfalso. rewrite E in Hq. destruct Hq as [?|[Hz|[Hx|[Hx _]]]]; try discriminate Hx; [contradiction|].
    apply from_zx_range in Hz. now destruct Hz as [?|[?|[?|?]]].
Qed.
End Proofs2.
