(** Proofs for C58. *)
From Coq Require Import String List Bool NArith QArith Arith Lia.
From Verif Require Import Criterion Config EnumSpec EnumProofs SeqFlow SeqSpec SeqProofs VerdictSpec.
Import ListNotations.
Local Open Scope list_scope.

Section P.
Context {Stim Gen : Type}.
Notation env := (env Stim Gen).
Notation mgr := (mgr Stim Gen).
Implicit Types (e : env) (m : mgr) (c : config) (r : results Stim) (g : Gen).

Lemma loop_refuted e c l : never_fires e c -> forall fuel t q s r g g' n x,
  draws e g l g' -> (r_performed r + N.of_nat (length l) = maxSims (sim c))%N ->
  (length l < fuel)%nat -> first_refuting e l n x ->
  exists t' q' g1, simLoop fuel e c t q s r g =
    LDone t' q' (Some x)
      (mkResults NotEquivalent (r_started r + n) (r_performed r + n) (r_cexIn r) (r_cexOut r) (r_preproc r)) g1.
Proof.
  intros Hf. induction l as [|y l IH]; intros fuel t q s r g g' n x Hd Hn Hfuel [l1 l2 E Hl1 Hx En].
  { destruct l1; discriminate. }
  destruct fuel as [|fuel]; [cbn in Hfuel; lia|]. cbn [simLoop].
  assert (simulationsFinished c r = false) as ->.
  { unfold simulationsFinished. apply N.eqb_neq. cbn [length] in Hn. lia. }
  rewrite Hf. inversion Hd as [|? ? g1 ? ? Hg Hd1]; subst. rewrite Hg.
  assert (interrupted e c (S t) = false) as -> by (unfold interrupted; now rewrite Hf).
  destruct l1 as [|z l1]; cbn [app] in E; injection E as -> ->.
  - rewrite Hx. cbn [scrit]. do 3 eexists. f_equal.
  - inversion Hl1 as [|? ? Hz Hl1']; subst.
    assert (Hrec : forall q2, exists t' q' g1', simLoop fuel e c (S (S t)) q2 (Some z)
       (set_eq ProbablyEquivalent (set_counts (r_started r + 1) (r_performed r + 1) r)) g1 =
       LDone t' q' (Some x) (mkResults NotEquivalent (r_started r + (N.of_nat (length (z :: l1)) + 1))
          (r_performed r + (N.of_nat (length (z :: l1)) + 1)) (r_cexIn r) (r_cexOut r) (r_preproc r)) g1').
    { intros q2. edestruct (IH fuel (S (S t)) q2 (Some z)
        (set_eq ProbablyEquivalent (set_counts (r_started r + 1) (r_performed r + 1) r)) g1 g'
        (N.of_nat (length l1) + 1)%N x) as (t' & q' & g2 & E).
      - exact Hd1.
      - cbn [set_eq set_counts r_performed]. cbn [length] in Hn. lia.
      - cbn [length] in Hfuel. lia.
      - exact (first_at _ _ _ _ l1 l2 eq_refl Hl1' Hx eq_refl).
      - exists t', q', g2. rewrite E. cbn [set_eq set_counts r_started r_performed r_cexIn r_cexOut r_preproc length].
        f_equal. f_equal; lia. }
    unfold nonref in Hz. destruct (e_sim e z); [apply Hrec|apply Hrec|congruence].
Qed.

Lemma loop_agree e c l : never_fires e c -> forall fuel t q s r g g',
  draws e g l g' -> (r_performed r + N.of_nat (length l) = maxSims (sim c))%N ->
  (length l < fuel)%nat -> Forall (nonref e) l ->
  exists t' q' s', simLoop fuel e c t q s r g =
    LDone t' q' s'
      (mkResults (match l with [] => r_eq r | _ => ProbablyEquivalent end)
         (r_started r + N.of_nat (length l)) (maxSims (sim c)) (r_cexIn r) (r_cexOut r) (r_preproc r)) g'.
Proof.
  intros Hf. induction l as [|y l IH]; intros fuel t q s r g g' Hd Hn Hfuel Hl.
  - destruct fuel as [|fuel]; [cbn in Hfuel; lia|]. cbn [simLoop].
    assert (simulationsFinished c r = true) as ->.
    { unfold simulationsFinished. apply N.eqb_eq. cbn [length] in Hn. lia. }
    inversion Hd; subst. do 3 eexists. f_equal. destruct r; cbn in *. f_equal; lia.
  - destruct fuel as [|fuel]; [cbn in Hfuel; lia|]. cbn [simLoop].
    assert (simulationsFinished c r = false) as ->.
    { unfold simulationsFinished. apply N.eqb_neq. cbn [length] in Hn. lia. }
    rewrite Hf. inversion Hd as [|? ? g1 ? ? Hg Hd1]; subst. rewrite Hg.
    assert (interrupted e c (S t) = false) as -> by (unfold interrupted; now rewrite Hf).
    inversion Hl as [|? ? Hy Hl']; subst.
    assert (Hrec : forall q2, exists t' q' s', simLoop fuel e c (S (S t)) q2 (Some y)
       (set_eq ProbablyEquivalent (set_counts (r_started r + 1) (r_performed r + 1) r)) g1 =
       LDone t' q' s' (mkResults ProbablyEquivalent (r_started r + N.of_nat (length (y :: l)))
          (maxSims (sim c)) (r_cexIn r) (r_cexOut r) (r_preproc r)) g').
    { intros q2. edestruct (IH fuel (S (S t)) q2 (Some y)
        (set_eq ProbablyEquivalent (set_counts (r_started r + 1) (r_performed r + 1) r)) g1 g') as (t' & q' & s' & E).
      - exact Hd1.
      - cbn [set_eq set_counts r_performed]. cbn [length] in Hn. lia.
      - cbn [length] in Hfuel. lia.
      - exact Hl'.
      - exists t', q', s'. rewrite E. cbn [set_eq set_counts r_eq r_started r_performed r_cexIn r_cexOut r_preproc length].
        f_equal. f_equal; [now destruct l|lia]. }
    unfold nonref in Hy. destruct (e_sim e y); [apply Hrec|apply Hrec|congruence].
Qed.

(** the phases after a refutation do nothing *)
Lemma rest_done e c s : s_done s = true ->
  exists s', (bind (seqExact KAlt (runAlternatingChecker (exec c)) (e_alt e) (negb (e_canHandle e)) e c s) (fun s =>
     bind (seqExact KCon (runConstructionChecker (exec c)) (e_con e) false e c s) (fun s => seqZX e c s))) = inl (Returned s')
    /\ s_res s' = s_res s.
Proof.
  intros Hd. unfold seqExact at 1.
  destruct (runAlternatingChecker (exec c)); cbn [negb]; unfold reads_done; try rewrite Hd; cbn [orb bind].
  all: unfold seqExact; destruct (runConstructionChecker (exec c)); cbn [negb]; unfold reads_done;
    cbn [tick s_done]; rewrite ?Hd; cbn [orb bind].
  all: unfold seqZX; destruct (runZXChecker (exec c)); cbn [negb]; unfold reads_done;
    cbn [tick s_done]; rewrite ?Hd; cbn [orb bind].
  all: eexists; split; reflexivity.
Qed.

Lemma exact_off k v th e c s : seqExact k false v th e c s = inl (Returned s).
Proof. reflexivity. Qed.

Lemma exact_on k v e c s : never_fires e c -> s_done s = false -> ctor_throws e c k = false ->
  exists s', seqExact k true v false e c s = inl (Returned s') /\ s_done s' = true /\
    s_res s' = set_eq (mcrit v) (s_res s).
Proof.
  intros Hf Hd Hc. unfold seqExact, reads_done. cbn [negb tick s_done s_t]. rewrite Hd, !Hf, Hc. cbn [orb].
  unfold interrupted. rewrite Hf. cbn [andb]. pose proof (mcrit_ni v).
  destruct (mcrit v) eqn:E; try congruence; (eexists; split; [reflexivity|split; reflexivity]).
Qed.

Lemma exact_skip k en v th e c s : never_fires e c -> s_done s = true ->
  exists s', seqExact k en v th e c s = inl (Returned s') /\ s_done s' = true /\ s_res s' = s_res s.
Proof.
  intros Hf Hd. unfold seqExact, reads_done. rewrite Hd. destruct en; cbn [negb orb]; eauto.
Qed.

Lemma zx_skip e c s : s_done s = true ->
  exists s', seqZX e c s = inl (Returned s') /\ s_res s' = s_res s.
Proof.
  intros Hd. unfold seqZX, reads_done. rewrite Hd. destruct (runZXChecker _); cbn [negb orb]; eauto.
Qed.

Definition zx_table e c (ran : bool) : criterion :=
  let soFar := if ran then ProbablyEquivalent else NoInformation in
  if runZXChecker (exec c) && e_transformable e then
    match e_zx e with
    | ZEquivalent => Equivalent | ZGlobalPhase => EquivalentUpToGlobalPhase
    | ZFail => if e_ancilla e then soFar else if ran then NoInformation else ProbablyNotEquivalent end
  else soFar.

Lemma set_eq_id r : @set_eq Stim (r_eq r) r = r.
Proof. now destruct r. Qed.

Lemma zx_run e c s (ran : bool) : never_fires e c -> s_done s = false ->
  (runZXChecker (exec c) = true -> e_zx_perm_ok e = true) ->
  r_eq (s_res s) = (if ran then ProbablyEquivalent else NoInformation) ->
  (ran = true -> onlyZXCheckerConfigured c = false) ->
  (ran = false -> onlyZXCheckerConfigured c = true \/ e_ndebug e = true \/ runZXChecker (exec c) = false) ->
  exists s', seqZX e c s = inl (Returned s') /\ s_res s' = set_eq (zx_table e c ran) (s_res s).
Proof.
  intros Hf Hd Hp Hq Hr Hnr. unfold seqZX, zx_table, reads_done.
  destruct (runZXChecker (exec c)) eqn:Ez; cbn [negb andb];
    [|rewrite <- Hq, set_eq_id; eexists; split; reflexivity].
  cbn [tick s_done s_t]. rewrite Hd, !Hf. cbn [orb].
  destruct (e_transformable e).
  2:{ destruct (onlyZXCheckerConfigured c).
      - destruct ran; [specialize (Hr eq_refl); discriminate|]. eexists; split; reflexivity.
      - rewrite <- Hq, set_eq_id. eexists; split; reflexivity. }
  rewrite Hp by reflexivity. cbn [negb]. unfold interrupted. rewrite Hf. cbn [andb].
  cbn [add_checker set_done tick s_res].
  destruct (e_zx e); cbn [zcrit]; [eexists; split; reflexivity|eexists; split; reflexivity|].
  destruct (e_ancilla e).
  - rewrite Hq. destruct ran; cbn [criterion_eqb andb].
    + eexists; split; [reflexivity|]. cbn [s_res]. now rewrite <- Hq, set_eq_id.
    + match goal with |- context [if ?b then _ else _] => assert (b = false) as -> end.
      { destruct (Hnr eq_refl) as [->|[->|H]]; [reflexivity|apply andb_false_r|discriminate]. }
      eexists; split; [reflexivity|]. cbn [s_res]. now rewrite <- Hq, set_eq_id.
  - rewrite Hq. destruct ran; cbn [criterion_eqb]; eexists; split; reflexivity.
Qed.

Lemma table_eq e c (ran : bool) : table e c ran =
  if runAlternatingChecker (exec c) then mcrit (e_alt e)
  else if runConstructionChecker (exec c) then mcrit (e_con e) else zx_table e c ran.
Proof.
  unfold table, zx_table. destruct (runAlternatingChecker _); [now destruct (e_alt e)|].
  destruct (runConstructionChecker _); [now destruct (e_con e)|]. reflexivity.
Qed.

Lemma set_eq_set_eq a b r : @set_eq Stim a (set_eq b r) = set_eq a r.
Proof. reflexivity. Qed.

(** the phases after simulations that did not refute *)
Lemma rest_run e c s (ran : bool) : never_fires e c -> no_exceptions e c ->
  s_done s = true \/ s_done s = false ->
  (s_done s = true -> runAlternatingChecker (exec c) = false /\ runConstructionChecker (exec c) = false /\ runZXChecker (exec c) = false) ->
  r_eq (s_res s) = (if ran then ProbablyEquivalent else NoInformation) ->
  (ran = true -> runSimulationChecker (exec c) = true) ->
  (ran = false -> runSimulationChecker (exec c) = false \/ e_ndebug e = true) ->
  exists s', (bind (seqExact KAlt (runAlternatingChecker (exec c)) (e_alt e) (negb (e_canHandle e)) e c s) (fun s =>
     bind (seqExact KCon (runConstructionChecker (exec c)) (e_con e) false e c s) (fun s => seqZX e c s))) = inl (Returned s')
    /\ s_res s' = set_eq (table e c ran) (s_res s).
Proof.
  intros Hf (_ & NA & NC & NZ) _ Hd Hq Hr1 Hr2. rewrite table_eq.
  destruct (s_done s) eqn:Ed.
  { destruct (Hd eq_refl) as (A & B & C). rewrite A, B. rewrite !exact_off. cbn [bind]. rewrite exact_off. cbn [bind].
    unfold seqZX, zx_table. rewrite C. cbn [negb andb]. rewrite <- Hq, set_eq_id. eauto. }
  destruct (runAlternatingChecker (exec c)) eqn:EA.
  { destruct (NA eq_refl) as [A1 A2]. rewrite A2. cbn [negb].
    destruct (exact_on KAlt (e_alt e) e c s Hf Ed A1) as (s1 & E1 & D1 & R1). rewrite E1. cbn [bind].
    edestruct (exact_skip KCon (runConstructionChecker (exec c)) (e_con e) false e c s1 Hf D1) as (s2 & E2 & D2 & R2).
    rewrite E2. cbn [bind].
    destruct (zx_skip e c s2 D2) as (s3 & E3 & R3). exists s3. split; [exact E3|]. now rewrite R3, R2. }
  rewrite exact_off. cbn [bind].
  destruct (runConstructionChecker (exec c)) eqn:EC.
  { destruct (exact_on KCon (e_con e) e c s Hf Ed (NC eq_refl)) as (s1 & E1 & D1 & R1). rewrite E1. cbn [bind].
    destruct (zx_skip e c s1 D1) as (s3 & E3 & R3). exists s3. split; [exact E3|]. now rewrite R3. }
  rewrite exact_off. cbn [bind].
  apply zx_run; auto.
  - intros ->. unfold onlyZXCheckerConfigured. rewrite (Hr1 eq_refl), EA, EC.
    cbn. now destruct (runZXChecker (exec c)).
  - intros ->. destruct (Hr2 eq_refl) as [H|H]; [|auto].
    destruct (runZXChecker (exec c)) eqn:EZ; [left|auto].
    unfold onlyZXCheckerConfigured. rewrite H, EA, EC, EZ. reflexivity.
Qed.

Lemma no_first e l : (forall n x, ~ first_refuting e l n x) -> Forall (nonref e) l.
Proof.
  induction l as [|y l IH]; intros H; constructor.
  - intros E. exact (H 1%N y (first_at _ _ _ _ [] l eq_refl (Forall_nil _) E eq_refl)).
  - apply IH. intros n x [l1 l2 -> Hl Hx ->]. destruct (e_sim e y) eqn:Ey.
    3:{ exact (H 1%N y (first_at _ _ _ _ [] (l1 ++ x :: l2) eq_refl (Forall_nil _) Ey eq_refl)). }
    all: refine (H _ x (first_at _ _ _ _ (y :: l1) l2 eq_refl _ Hx eq_refl)); constructor; auto;
      unfold nonref; congruence.
Qed.

Lemma sim_counts n : forall l : list Stim, N.of_nat (length l) = n -> (n =? 0)%N = match l with [] => true | _ => false end.
Proof. intros [|x l] <-; reflexivity. Qed.

(** a refuting stimulus *)
Lemma verdict_refuted fuel pf e m l g' n x :
  choose_flow e (m_cfg m) = FSequential -> never_fires e (m_cfg m) -> no_exceptions e (m_cfg m) ->
  r_performed (m_res m) = 0%N -> draws e (m_gen m) l g' -> N.of_nat (length l) = maxSims (sim (m_cfg m)) ->
  (length l < fuel)%nat ->
  runSimulationChecker (exec (m_cfg m)) = true -> first_refuting e l n x ->
  exists m', run fuel pf e m = Returned m' /\
    m_res m' = mkResults NotEquivalent (r_started (m_res m) + n) n
      (if storeCEXinput (sim (m_cfg m)) then Some x else r_cexIn (m_res m))
      (if storeCEXoutput (sim (m_cfg m)) then Some x else r_cexOut (m_res m)) (r_preproc (m_res m)).
Proof.
  intros Hc Hf Hne Hp Hd Hl Hfu Hs Hx. unfold run. rewrite Hc. unfold checkSequential.
  set (c := m_cfg m) in *. change (m_cfg (start_run m)) with c.
  unfold seqSim. rewrite Hs. cbn [negb].
  assert (ctor_throws e c KSim = false) as -> by (now apply Hne).
  cbn [start_run m_done m_checkers m_res m_gen s_t s_res s_gen].
  destruct (loop_refuted e c l Hf fuel 0 NoInformation None (set_eq NoInformation (m_res m)) (m_gen m) g' n x)
    as (t' & q' & g1 & E); auto.
  { cbn [set_eq r_performed]. fold c in Hl. lia. }
  rewrite E. cbn [r_eq]. cbn [set_eq r_started r_performed r_cexIn r_cexOut r_preproc].
  rewrite Hp, N.add_0_l. cbn [bind].
  match goal with |- context [seqExact KAlt _ _ _ _ _ ?s] =>
    destruct (rest_done e c s) as (s' & E' & R') end.
  { cbn [s_done]. reflexivity. }
  rewrite E'. cbn [finish_flow]. eexists; split; [reflexivity|]. cbn [m_res]. now rewrite R'.
Qed.

(** no refuting stimulus *)
Lemma verdict_agree fuel pf e m l g' :
  choose_flow e (m_cfg m) = FSequential -> never_fires e (m_cfg m) -> no_exceptions e (m_cfg m) ->
  r_performed (m_res m) = 0%N -> draws e (m_gen m) l g' -> N.of_nat (length l) = maxSims (sim (m_cfg m)) ->
  (length l < fuel)%nat ->
  (runSimulationChecker (exec (m_cfg m)) = true -> forall n x, ~ first_refuting e l n x) ->
  (runSimulationChecker (exec (m_cfg m)) = true -> l = [] -> e_ndebug e = true) ->
  let n := if runSimulationChecker (exec (m_cfg m)) then maxSims (sim (m_cfg m)) else 0%N in
  exists m', run fuel pf e m = Returned m' /\
    m_res m' = mkResults (table e (m_cfg m) (negb (N.eqb n 0))) (r_started (m_res m) + n) n
      (r_cexIn (m_res m)) (r_cexOut (m_res m)) (r_preproc (m_res m)).
Proof.
  intros Hc Hf Hne Hp Hd Hl Hfu Hx Hnd n. unfold run. rewrite Hc. unfold checkSequential.
  set (c := m_cfg m) in *. change (m_cfg (start_run m)) with c.
  destruct (runSimulationChecker (exec c)) eqn:Hs; unfold n.
  - unfold seqSim. rewrite Hs. cbn [negb].
    assert (ctor_throws e c KSim = false) as -> by (now apply Hne).
    cbn [start_run m_done m_checkers m_res m_gen s_t s_res s_gen].
    destruct (loop_agree e c l Hf fuel 0 NoInformation None (set_eq NoInformation (m_res m)) (m_gen m) g')
      as (t' & q' & s1 & E); auto.
    { cbn [set_eq r_performed]. fold c in Hl. lia. }
    { apply no_first. now apply Hx. }
    rewrite E. cbn [set_eq r_started r_performed r_cexIn r_cexOut r_preproc r_eq].
    rewrite (sim_counts _ l Hl), Hl.
    set (q0 := match l with [] => NoInformation | _ => ProbablyEquivalent end).
    assert (Hq0 : q0 = if negb match l with [] => true | _ => false end then ProbablyEquivalent else NoInformation)
      by (unfold q0; now destruct l).
    assert (Hres : forall (A B : results Stim), match q0 with NotEquivalent => A | _ => B end = B)
      by (intros; unfold q0; now destruct l).
    rewrite Hres. cbn [bind s_done].
    match goal with |- context [seqExact KAlt _ _ _ _ _ ?s] =>
      destruct (rest_run e c s (negb match l with [] => true | _ => false end)) as (s' & E' & R') end; auto.
    { cbn [s_done]. destruct (_ || _); auto. }
    { cbn [s_done orb]. intros H.
      assert (Hq : criterion_eqb q0 NotEquivalent = false) by (unfold q0; now destruct l).
      rewrite Hq in H. cbn [orb] in H. apply andb_prop in H as [H _].
      unfold onlySimulationCheckerConfigured in H. rewrite Hs in H.
      destruct (runAlternatingChecker (exec c)), (runConstructionChecker (exec c)), (runZXChecker (exec c));
        cbn in H; try discriminate; auto. }
    { intros H. right. apply Hnd; auto. destruct l; [reflexivity|discriminate]. }
    rewrite E'. cbn [finish_flow]. eexists; split; [reflexivity|]. cbn [m_res]. rewrite R'. reflexivity.
  - unfold seqSim. rewrite Hs. cbn [negb bind start_run m_done m_checkers m_res m_gen].
    match goal with |- context [seqExact KAlt _ _ _ _ _ ?s] =>
      destruct (rest_run e c s false) as (s' & E' & R') end; auto.
    { discriminate. } { discriminate. }
    rewrite E'. cbn [finish_flow]. eexists; split; [reflexivity|]. cbn [m_res]. rewrite R'.
    cbn [s_res set_eq r_started r_performed r_cexIn r_cexOut r_preproc]. unfold set_eq; cbn; rewrite Hp, N.add_0_r; reflexivity.
Qed.
End P.
