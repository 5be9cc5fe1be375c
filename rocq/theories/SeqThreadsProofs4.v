(** What SeqThreadsProofs3.v says about the two flows. *)
From Coq Require Import String List Bool NArith QArith Arith Lia.
From Verif Require Import Criterion Config SeqFlow Trace SeqThreads SeqThreadsSpec SeqThreadsProofs SeqThreadsProofs2 SeqThreadsProofs3.
Import ListNotations.
Local Open Scope list_scope.
Local Open Scope nat_scope.

Section Flows.
Context {Stim Gen : Type}.
Notation env := (env Stim Gen).
Notation left_over := (left_over Stim Gen).
Variables (e : env) (c : config).
Notation act := (prog (outcome left_over)).
Definition returns (a : outcome left_over) : Prop := exists l, a = Returned l.
Notation touches := (touches returns).
Notation joins := (joins returns).
Notation silent := (silent returns).

Lemma not_returned : ~ returns Terminated /\ ~ returns Diverged /\ ~ returns Thrown /\ ~ returns AssertFailed.
Proof. repeat split; intros [l F]; discriminate. Qed.
Lemma exception_not : ~ returns (leave_by_exception c).
Proof. unfold leave_by_exception. intros [l F]. destruct (hasTimeout c); discriminate. Qed.

(** the simulations: any property of what follows that the loop respects *)
Lemma sim_touch fuel s (next : left_over -> act) :
  (runSimulationChecker (exec c) = false -> touches (next s)) ->
  (onlySimulationCheckerConfigured c = false -> forall s, touches (next s)) -> touches (sim_part fuel e c s next).
Proof.
  intros HN0 HN. destruct not_returned as (N1 & N2 & N3 & N4). unfold sim_part. destruct (runSimulationChecker (exec c)); [|apply HN0; reflexivity]. cbn [negb].
  destruct (ctor_throws e c KSim); [apply exception_not|]. cbn [SeqThreadsProofs3.touches]. destruct fuel as [|f]; [exact N2|]. cbn [sim_loop].
  destruct (simulationsFinished c (f_res s)) eqn:EF; [|exact I].
  cbn zeta. destruct (criterion_eqb (r_eq (f_res s)) NotEquivalent), (onlySimulationCheckerConfigured c) eqn:EO;
    cbn [andb announce SeqThreadsProofs3.touches]; auto.
Qed.
Lemma exact_touch k en v th s (next : left_over -> act) : (en = false -> touches (next s)) -> touches (exact_part k en v th e c s next).
Proof. intros H. unfold exact_part. destruct en; [exact I|apply H; reflexivity]. Qed.
Lemma zx_touch s : runZXChecker (exec c) = true -> touches (zx_part e c s).
Proof. intros H. unfold zx_part. rewrite H. exact I. Qed.
Lemma sequential_touch fuel s : anythingToExecute c = true -> touches (sequential_prog fuel e c s).
Proof.
  intros H. unfold sequential_prog.
  assert (REST : forall s, runAlternatingChecker (exec c) || runConstructionChecker (exec c) || runZXChecker (exec c) = true ->
    touches (exact_part KAlt (runAlternatingChecker (exec c)) (e_alt e) (negb (e_canHandle e)) e c s (fun s =>
       exact_part KCon (runConstructionChecker (exec c)) (e_con e) false e c s (fun s => zx_part e c s)))).
  { intros s' HR. apply exact_touch. intros E1. apply exact_touch. intros E2. apply zx_touch. rewrite E1, E2 in HR. exact HR. }
  apply sim_touch.
  - intros HS. apply REST. unfold anythingToExecute in H. rewrite HS in H.
    destruct (runAlternatingChecker (exec c)), (runConstructionChecker (exec c)), (runZXChecker (exec c)); cbn in *; auto.
  - intros HS s'. apply REST. unfold onlySimulationCheckerConfigured, anythingToExecute in *.
    destruct (runAlternatingChecker (exec c)), (runConstructionChecker (exec c)), (runZXChecker (exec c)), (runSimulationChecker (exec c)); cbn in *; auto;
      try discriminate; destruct (_ : bool) in *; discriminate.
Qed.
Lemma symbolic_touch s : touches (symbolic_prog e c s).
Proof. exact I. Qed.

Hypothesis HT : hasTimeout c = true.
Lemma sim_joins fuel s (next : left_over -> act) : (forall s, joins (next s)) -> joins (sim_part fuel e c s next).
Proof.
  intros HN. destruct not_returned as (N1 & N2 & N3 & N4). unfold sim_part. destruct (negb _); [apply HN|]. destruct (ctor_throws e c KSim); [apply exception_not|].
  cbn [SeqThreadsProofs3.joins].
  match goal with |- joins (sim_loop _ _ _ ?q0 ?stm0 ?r0 ?g0 ?ex0 ?old0) =>
    assert (HE : forall qq ss rr gg, joins (ex0 qq ss rr gg)); [|generalize q0 stm0 r0 g0; revert HE; generalize ex0] end.
  { intros qq ss rr gg. cbn zeta. destruct (criterion_eqb (r_eq rr) NotEquivalent), (onlySimulationCheckerConfigured c && simulationsFinished c rr);
      cbn [announce SeqThreadsProofs3.joins]; apply HN. }
  intros ex HE. induction fuel as [|f IH]; intros q stm r g; cbn [sim_loop]; [exact N2|].
  destruct (simulationsFinished c r); [apply HE|]. unfold if_not_done. cbn [SeqThreadsProofs3.joins]. intros [|]; [apply HE|].
  destruct (e_gen e g) as [[x g']|]; [|exact N2]. cbn [SeqThreadsProofs3.joins]. intros cut. cbn zeta. rewrite HT.
  destruct (if cut then q else _); first [apply IH|apply HE|cbn; auto].
Qed.
Lemma exact_joins k en v th s (next : left_over -> act) : (forall s, joins (next s)) -> joins (exact_part k en v th e c s next).
Proof.
  intros HN. unfold exact_part. destruct (negb en); [apply HN|]. unfold if_not_done. cbn [SeqThreadsProofs3.joins]. intros [|]; [apply HN|].
  destruct (ctor_throws e c k); [apply exception_not|]. cbn [SeqThreadsProofs3.joins]. intros [|]; [apply HN|]. destruct th; [apply exception_not|].
  cbn [SeqThreadsProofs3.joins]. intros cut. cbn zeta. destruct (if cut then NoInformation else mcrit v); cbn [announce SeqThreadsProofs3.joins]; apply HN.
Qed.
Lemma zx_joins s : joins (zx_part e c s).
Proof.
  destruct not_returned as (N1 & N2 & N3 & N4).
  unfold zx_part. destruct (negb (runZXChecker (exec c))); [exact I|]. unfold if_not_done. cbn [SeqThreadsProofs3.joins]. intros [|]; [exact I|].
  destruct (e_transformable e); [|destruct (onlyZXCheckerConfigured c); exact I]. destruct (negb (e_zx_perm_ok e)); [exact N1|].
  cbn [SeqThreadsProofs3.joins]. intros [|]; [exact I|]. cbn [SeqThreadsProofs3.joins]. intros cut. cbn [announce SeqThreadsProofs3.joins].
  destruct (if cut then NoInformation else _); try exact I; destruct (_ && _ && _); first [exact I|exact N4].
Qed.
Lemma sequential_joins fuel s : joins (sequential_prog fuel e c s).
Proof. apply sim_joins. intros s1. apply exact_joins. intros s2. apply exact_joins. intros s3. apply zx_joins. Qed.
Lemma symbolic_joins s : joins (symbolic_prog e c s).
Proof.
  destruct not_returned as (N1 & N2 & N3 & N4).
  unfold symbolic_prog, if_not_done. cbn [SeqThreadsProofs3.joins]. intros [|]; [exact I|]. rewrite HT. destruct (e_transformable e); [|exact N1].
  destruct (negb _); [exact N1|]. cbn [SeqThreadsProofs3.joins]. intros [|]; [exact I|]. cbn [SeqThreadsProofs3.joins]. intros cut. exact I.
Qed.

Lemma races_sequential fuel s n f acts l : anythingToExecute c = true ->
  leaves acts (s_init true (sequential_prog fuel e c s) n f) (Returned l) ->
  exists i j, race_on (s_prefix true ++ strace acts (s_init true (sequential_prog fuel e c s) n f)) SDone i j.
Proof.
  intros HA HL. apply (always_races returns acts _ n f (Returned l)); auto; [apply g_sequential|apply sequential_touch, HA|apply sequential_joins|].
  exists l. reflexivity.
Qed.
Lemma races_symbolic s n f acts l :
  leaves acts (s_init true (symbolic_prog e c s) n f) (Returned l) ->
  exists i j, race_on (s_prefix true ++ strace acts (s_init true (symbolic_prog e c s) n f)) SDone i j.
Proof.
  intros HL. apply (always_races returns acts _ n f (Returned l)); auto; [apply g_symbolic|apply symbolic_touch|apply symbolic_joins|].
  exists l. reflexivity.
Qed.

(** nobody announces anything: simulations that agree, and a ZX checker that does not run *)
Lemma sequential_silent fuel s : runAlternatingChecker (exec c) = false -> runConstructionChecker (exec c) = false -> runZXChecker (exec c) = true ->
  e_transformable e = false -> (forall x, scrit (e_sim e x) <> NotEquivalent) -> r_eq (f_res s) <> NotEquivalent ->
  silent (sequential_prog fuel e c s).
Proof.
  intros HA HC HZ HTR HS HR. destruct not_returned as (N1 & N2 & N3 & N4). unfold sequential_prog.
  match goal with |- silent (sim_part _ _ _ _ ?nx) => assert (REST : forall s, silent (nx s)); [|revert REST; generalize nx] end.
  { intros s'. unfold exact_part. rewrite HA, HC. cbn [negb]. unfold zx_part. rewrite HZ, HTR. cbn. destruct (onlyZXCheckerConfigured c); exact I. }
  intros next REST.
  unfold sim_part. destruct (negb _); [apply REST|]. destruct (ctor_throws e c KSim); [apply exception_not|]. cbn [SeqThreadsProofs3.silent].
  assert (HO : onlySimulationCheckerConfigured c = false).
  { unfold onlySimulationCheckerConfigured. rewrite HZ. cbn. rewrite ?andb_false_r. reflexivity. }
  match goal with |- silent (sim_loop _ _ _ ?q0 ?stm0 ?r0 ?g0 ?ex0 ?old0) =>
    assert (HE : forall qq ss rr gg, r_eq rr <> NotEquivalent -> silent (ex0 qq ss rr gg)); [|revert HR; generalize q0 stm0 r0 g0; revert HE; generalize ex0] end.
  { intros qq ss rr gg Hr. cbn zeta. rewrite HO. cbn [andb]. destruct (r_eq rr) eqn:E; try contradiction; cbn [criterion_eqb]; apply REST. }
  intros ex HE. induction fuel as [|f IH]; intros q stm r g HR; cbn [sim_loop]; [exact N2|].
  destruct (simulationsFinished c r); [apply HE, HR|]. unfold if_not_done. cbn [SeqThreadsProofs3.silent].
  destruct (e_gen e g) as [[x g']|]; [|exact N2]. cbn [SeqThreadsProofs3.silent]. cbn zeta. rewrite HT. specialize (HS x).
  destruct (scrit (e_sim e x)); try contradiction; first [apply IH; cbn; discriminate|cbn; auto].
Qed.
Lemma needs_deadline fuel s n f acts l : runAlternatingChecker (exec c) = false -> runConstructionChecker (exec c) = false -> runZXChecker (exec c) = true ->
  e_transformable e = false -> (forall x, scrit (e_sim e x) <> NotEquivalent) -> r_eq (f_res s) <> NotEquivalent ->
  leaves acts (s_init true (sequential_prog fuel e c s) n f) (Returned l) -> In SDeadline acts.
Proof.
  intros HA HC HZ HTR HS HR (w' & HRun & HU & HP).
  destruct (in_dec (fun x y : sact => ltac:(repeat decide equality) : {x = y} + {x <> y}) SDeadline acts) as [H|H]; [exact H|]. exfalso.
  refine (silent_run returns acts _ w' false HRun H (sequential_silent fuel s HA HC HZ HTR HS HR) eq_refl eq_refl (own_sequential e c fuel s) _ (Returned l) HP _).
  - discriminate.
  - exists l. reflexivity.
Qed.
End Flows.

(** without a timeout there is one thread *)
Section One.
Context {A : Type}.
Lemma one_thread acts : forall (w : shared A) ev, w_tm w = TNone -> In ev (strace acts w) -> fst ev = 0.
Proof.
  induction acts as [|x acts IH]; intros w ev HT HI; cbn [strace] in HI; [destruct HI|].
  destruct (sstep x w) as [w1|] eqn:ES; [|destruct HI]. unfold sstep in ES. destruct (stopped w); [discriminate|].
  destruct x as [cut| | |]; [|unfold stimer in ES; rewrite HT in ES; discriminate..].
  apply in_app_or in HI. destruct HI as [HI|HI].
  - cbn in HI. apply in_map_iff in HI. destruct HI as (y & <- & _). reflexivity.
  - apply (IH w1 ev); [|exact HI]. unfold smain in ES. destruct (w_prog w); try discriminate; try (injection ES as <-; exact HT).
    + injection ES as <-. cbn. rewrite HT. reflexivity.
    + destruct (_ || _); [|discriminate]. injection ES as <-. exact HT.
    + rewrite HT in ES. injection ES as <-. reflexivity.
Qed.
Lemma no_timeout_race_free acts p n f : race_free (s_prefix false ++ strace acts (@s_init A false p n f)).
Proof.
  intros l i j (Hl & t & u & a & b & H1 & H2 & HN & _). apply HN.
  assert (Z : forall k ev, nth_error (s_prefix false ++ strace acts (s_init false p n f)) k = Some ev -> fst ev = 0).
  { intros k ev H. apply nth_error_In in H. cbn in H. destruct H as [<-|H]; [reflexivity|]. apply (one_thread acts (s_init false p n f)); auto. }
  apply Z in H1. apply Z in H2. cbn in *. congruence.
Qed.
End One.

Section Iff.
Context {Stim Gen : Type}.
Lemma exact_sequential (e : env Stim Gen) c fuel m n f o : m_cfg m = c -> m_done m = false ->
  ((exists acts, leaves acts (s_init (hasTimeout c) (sequential_prog fuel e c (of_mgr m)) n f) o) <->
   (exists fire notice, o = remains (checkSequential fuel (timed e fire notice) m))).
Proof.
  intros HC HD. split.
  - intros [acts HL]. exact (refine_sequential e c fuel m n f acts o HC HD HL).
  - intros (fire & notice & ->). exact (real_sequential e c fuel m n f fire notice HC HD).
Qed.
Lemma exact_symbolic (e : env Stim Gen) c m n f o : m_cfg m = c -> m_done m = false ->
  ((exists acts, leaves acts (s_init (hasTimeout c) (symbolic_prog e c (of_mgr m)) n f) o) <->
   (exists fire notice, o = remains (checkSymbolic (timed e fire notice) m))).
Proof.
  intros HC HD. split.
  - intros [acts HL]. exact (refine_symbolic e c m n f acts o HC HD HL).
  - intros (fire & notice & ->). exact (real_symbolic e c m n f fire notice HC HD).
Qed.
End Iff.
