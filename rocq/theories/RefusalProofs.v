(** Proofs for C60. *)
From Coq Require Import String List Bool NArith QArith Arith Lia.
From Verif Require Import Criterion Config EnumSpec EnumProofs SeqFlow SeqSpec SeqProofs SeqProofs2 SeqProofs3 VerdictSpec VerdictProofs RefusalSpec.
Import ListNotations.
Local Open Scope list_scope.

Section P.
Context {Stim Gen : Type}.
Notation env := (env Stim Gen).
Notation mgr := (mgr Stim Gen).
Implicit Types (e : env) (m : mgr) (c : config) (r : results Stim) (g : Gen).

Lemma scheme_eqb_iff (a b : scheme) : scheme_eqb a b = true <-> a = b.
Proof. destruct a, b; cbn; split; congruence. Qed.
Lemma unreadable_iff e c s : scheme_ctor_throws e c s = true <-> unreadable_profile e c s.
Proof.
  unfold scheme_ctor_throws, unreadable_profile. rewrite !andb_true_iff, !negb_true_iff, scheme_eqb_iff.
  rewrite <- not_true_iff_false, String.eqb_eq. tauto.
Qed.
Lemma ctor_throws_iff e c k : ctor_throws e c k = true <-> constructor_refuses e c k.
Proof.
  destruct k; cbn [ctor_throws constructor_refuses]; rewrite ?orb_true_iff, ?scheme_eqb_iff, ?unreadable_iff; try tauto.
  split; [discriminate|tauto].
Qed.
Lemma ctor_throws_false e c k : ctor_throws e c k = false <-> ~ constructor_refuses e c k.
Proof. rewrite <- ctor_throws_iff. now destruct (ctor_throws e c k). Qed.
Lemma no_exceptions_iff e c : no_exceptions e c <->
  (runSimulationChecker (exec c) = true -> ~ refuses e c KSim) /\
  (runAlternatingChecker (exec c) = true -> ~ refuses e c KAlt) /\
  (runConstructionChecker (exec c) = true -> ~ refuses e c KCon) /\
  (runZXChecker (exec c) = true -> e_zx_perm_ok e = true).
Proof.
  unfold no_exceptions, refuses. rewrite !ctor_throws_false.
  destruct (e_canHandle e); split; intros (A & B & C & D); repeat split; try (exact D);
    try (intros H; specialize (A H)); try (intros H; specialize (B H)); try (intros H; specialize (C H)); intuition congruence.
Qed.
Lemma refuses_con e c k : k <> KAlt -> refuses e c k <-> ctor_throws e c k = true.
Proof. intros N. rewrite ctor_throws_iff. unfold refuses. tauto. Qed.

Lemma bind_inr (o : outcome (@st Stim Gen)) f : bind (inr o) f = inr o.
Proof. reflexivity. Qed.
Lemma leave_finish c : finish_flow (Stim:=Stim) (Gen:=Gen) c (inr (leave_by_exception c)) = leave_by_exception c.
Proof. unfold leave_by_exception. now destruct (hasTimeout c). Qed.

Lemma exact_refuses k v e c (th : bool) (s : @st Stim Gen) : never_fires e c -> s_done s = false ->
  ctor_throws e c k = true \/ th = true -> seqExact k true v th e c s = inr (leave_by_exception c).
Proof.
  intros Hf Hd H. unfold seqExact, reads_done. cbn [negb tick s_done s_t]. rewrite Hd, !Hf. cbn [orb].
  destruct (ctor_throws e c k); [reflexivity|]. destruct H as [H| ->]; [discriminate|reflexivity].
Qed.

(** first_refuting is decidable *)
Lemma first_refuting_dec e l : (exists n x, first_refuting e l n x) \/ Forall (nonref e) l.
Proof.
  induction l as [|y l [(n & x & [l1 l2 E Hl Hx En])|IH]]; [right; constructor| |].
  - destruct (e_sim e y) eqn:Ey.
    3:{ left. exists 1%N, y. exact (first_at _ _ _ _ [] l eq_refl (Forall_nil _) Ey eq_refl). }
    all: left; eexists _, x; eapply (first_at _ _ _ _ (y :: l1) l2); [now rewrite E| |exact Hx|reflexivity];
      constructor; [unfold nonref; congruence|exact Hl].
  - destruct (e_sim e y) eqn:Ey.
    3:{ left. exists 1%N, y. exact (first_at _ _ _ _ [] l eq_refl (Forall_nil _) Ey eq_refl). }
    all: right; constructor; [unfold nonref; congruence|exact IH].
Qed.
Lemma nonref_no_first e l : Forall (nonref e) l -> forall n x, ~ first_refuting e l n x.
Proof.
  intros H n x [l1 l2 -> _ Hx _]. apply Forall_app in H as [_ H]. inversion H; subst. contradiction.
Qed.

Lemma run_sim_refused fuel pf e m :
  choose_flow e (m_cfg m) = FSequential -> runSimulationChecker (exec (m_cfg m)) = true -> refuses e (m_cfg m) KSim ->
  run fuel pf e m = leave_by_exception (m_cfg m).
Proof.
  intros F R H. rewrite run_sequential by assumption. unfold checkSequential, seqSim.
  cbn [start_run m_cfg]. rewrite R. cbn [negb]. apply refuses_con in H; [|discriminate]. rewrite H.
  rewrite bind_inr. apply leave_finish.
Qed.

(** state after the simulations *)
Lemma sim_phase fuel e m l g' : never_fires e (m_cfg m) ->
  (runSimulationChecker (exec (m_cfg m)) = true -> ctor_throws e (m_cfg m) KSim = false) ->
  r_performed (m_res m) = 0%N -> draws e (m_gen m) l g' -> N.of_nat (length l) = maxSims (sim (m_cfg m)) ->
  (length l < fuel)%nat ->
  exists s, seqSim fuel e (m_cfg m) (mkSt 0 false (m_checkers m) (set_eq NoInformation (m_res m)) (m_gen m)) = inl (Returned s) /\
    ((runSimulationChecker (exec (m_cfg m)) = true /\ (exists n x, first_refuting e l n x) /\ s_done s = true) \/
     ((runSimulationChecker (exec (m_cfg m)) = true -> Forall (nonref e) l) /\
      (s_done s = false \/ onlySimulationCheckerConfigured (m_cfg m) = true))).
Proof.
  intros Hf Hc Hp Hd Hn Hl. unfold seqSim.
  destruct (runSimulationChecker (exec (m_cfg m))) eqn:R; cbn [negb].
  2:{ eexists. split; [reflexivity|]. right. split; [discriminate|left; reflexivity]. }
  rewrite Hc by reflexivity. cbn [s_t s_res s_gen s_done s_chk].
  destruct (first_refuting_dec e l) as [(n & x & H)|H].
  - edestruct (loop_refuted e (m_cfg m) l Hf fuel 0 NoInformation None (set_eq NoInformation (m_res m)) (m_gen m) g' n x Hd) as (t' & q' & g1 & E); auto.
    { cbn [set_eq r_performed]. lia. }
    rewrite E. eexists. split; [reflexivity|]. left. split; [reflexivity|]. split; [eauto|reflexivity].
  - edestruct (loop_agree e (m_cfg m) l Hf fuel 0 NoInformation None (set_eq NoInformation (m_res m)) (m_gen m) g' Hd) as (t' & q' & s' & E); auto.
    { cbn [set_eq r_performed]. lia. }
    rewrite E. eexists. split; [reflexivity|]. right. split; [auto|].
    cbn [s_done r_eq]. destruct l; cbn [set_eq r_eq criterion_eqb orb]; destruct (onlySimulationCheckerConfigured (m_cfg m)); cbn [andb]; auto.
Qed.
Lemma only_sim c : onlySimulationCheckerConfigured c = true ->
  runAlternatingChecker (exec c) = false /\ runConstructionChecker (exec c) = false /\ runZXChecker (exec c) = false.
Proof.
  unfold onlySimulationCheckerConfigured. rewrite !andb_true_iff, !negb_true_iff. tauto.
Qed.
Lemma zx_not_thrown e c (s : @st Stim Gen) : finish_flow (Stim:=Stim) c (seqZX e c s) <> Thrown.
Proof.
  destruct (zx_phase_shape e c s) as [(s' & ->)|[(_ & _ & _ & ->)|(_ & _ & _ & _ & _ & _ & ->)]]; discriminate.
Qed.

Definition exact_phases e c (s : @st Stim Gen) :=
  bind (seqExact KAlt (runAlternatingChecker (exec c)) (e_alt e) (negb (e_canHandle e)) e c s) (fun s =>
  bind (seqExact KCon (runConstructionChecker (exec c)) (e_con e) false e c s) (fun s => seqZX e c s)).
Lemma zx_not_terminated e c (s : @st Stim Gen) : e_zx_perm_ok e = true -> finish_flow (Stim:=Stim) c (seqZX e c s) <> Terminated.
Proof.
  intros Hz. destruct (zx_phase_shape e c s) as [(s' & ->)|[(_ & _ & H & ->)|(_ & _ & _ & _ & _ & _ & ->)]]; try discriminate. congruence.
Qed.

Lemma refusal_core e c l (s : @st Stim Gen) : never_fires e c ->
  ~ (runSimulationChecker (exec c) = true /\ refuses e c KSim) ->
  s_done s = false \/ onlySimulationCheckerConfigured c = true ->
  (runSimulationChecker (exec c) = true -> Forall (nonref e) l) ->
  (meets_refusal e c l -> finish_flow c (exact_phases e c s) = leave_by_exception c) /\
  (~ meets_refusal e c l -> finish_flow c (exact_phases e c s) <> Thrown /\ (e_zx_perm_ok e = true -> finish_flow c (exact_phases e c s) <> Terminated)).
Proof.
  intros Hf NS Hdn Hnr.
  assert (Hno : runSimulationChecker (exec c) = true -> forall n x, ~ first_refuting e l n x) by
    (intros H; apply nonref_no_first; auto).
  assert (Hzx : forall s', finish_flow (Stim:=Stim) c (seqZX e c s') <> Thrown /\ (e_zx_perm_ok e = true -> finish_flow c (seqZX e c s') <> Terminated)) by
    (intros s'; split; [apply zx_not_thrown|apply zx_not_terminated]).
  unfold exact_phases.
  destruct Hdn as [Hdn|Hdn].
  2:{ destruct (only_sim c Hdn) as (A1 & A2 & A3). rewrite A1, A2, exact_off. cbn [bind]. rewrite exact_off. cbn [bind].
      split; [|intros _; apply Hzx]. intros [H|(_ & [(H & _)|(_ & H & _)])]; [contradiction|congruence|congruence]. }
  destruct (runAlternatingChecker (exec c)) eqn:EA.
  - destruct (ctor_throws e c KAlt) eqn:CA; [|destruct (e_canHandle e) eqn:CH].
    + rewrite exact_refuses by auto. rewrite bind_inr, leave_finish. split; [reflexivity|].
      intros H; destruct H; right; split; [exact Hno|left; split; [exact EA|]]. left. now apply ctor_throws_iff.
    + cbn [negb]. destruct (exact_on KAlt (e_alt e) e c s Hf Hdn CA) as (s1 & E1 & D1 & R1). rewrite E1; cbn [bind].
      destruct (exact_skip KCon (runConstructionChecker (exec c)) (e_con e) false e c s1 Hf D1) as (s2 & E2 & D2 & R2). rewrite E2; cbn [bind].
      split; [|intros _; apply Hzx]. intros [H|(_ & [(_ & [H|(_ & H)])|(H & _)])]; [contradiction| |congruence|congruence].
      apply ctor_throws_iff in H; congruence.
    + rewrite exact_refuses by auto. rewrite bind_inr, leave_finish. split; [reflexivity|].
      intros H; destruct H; right; split; [exact Hno|left; split; [exact EA|]]. right. auto.
  - rewrite exact_off; cbn [bind]. destruct (runConstructionChecker (exec c)) eqn:EC.
    + destruct (ctor_throws e c KCon) eqn:CC.
      * rewrite exact_refuses by auto. rewrite bind_inr, leave_finish. split; [reflexivity|].
        intros H; destruct H; right; split; [exact Hno|right; repeat split; auto]. left. now apply ctor_throws_iff.
      * destruct (exact_on KCon (e_con e) e c s Hf Hdn CC) as (s1 & E1 & D1 & R1). rewrite E1; cbn [bind].
        split; [|intros _; apply Hzx]. intros [H|(_ & [(H & _)|(_ & _ & H)])]; [contradiction|congruence|].
        apply refuses_con in H; [congruence|discriminate].
    + rewrite exact_off; cbn [bind]. split; [|intros _; apply Hzx].
      intros [H|(_ & [(H & _)|(_ & H & _)])]; [contradiction|congruence|congruence].
Qed.

Lemma refusal_exact fuel pf e m l g' :
  choose_flow e (m_cfg m) = FSequential -> never_fires e (m_cfg m) ->
  r_performed (m_res m) = 0%N -> draws e (m_gen m) l g' -> N.of_nat (length l) = maxSims (sim (m_cfg m)) ->
  (length l < fuel)%nat ->
  (meets_refusal e (m_cfg m) l -> run fuel pf e m = leave_by_exception (m_cfg m)) /\
  (~ meets_refusal e (m_cfg m) l -> run fuel pf e m <> Thrown /\ (e_zx_perm_ok e = true -> run fuel pf e m <> Terminated)).
Proof.
  intros F Hf Hp Hd Hn Hl.
  destruct (runSimulationChecker (exec (m_cfg m)) && ctor_throws e (m_cfg m) KSim) eqn:RS.
  { apply andb_true_iff in RS as [R ES]. assert (Q : refuses e (m_cfg m) KSim) by (apply refuses_con; [discriminate|exact ES]).
    split; [intros _; now apply run_sim_refused|]. intros H. destruct H. left. auto. }
  assert (NS : ~ (runSimulationChecker (exec (m_cfg m)) = true /\ refuses e (m_cfg m) KSim)).
  { intros [A B]. apply refuses_con in B; [|discriminate]. rewrite A, B in RS. discriminate. }
  destruct (sim_phase fuel e m l g' Hf) as (s & E & Hs); auto.
  { intros R. rewrite R in RS. exact RS. }
  rewrite run_sequential by exact F. unfold checkSequential. cbn [start_run m_cfg m_done m_checkers m_res m_gen].
  rewrite E. cbn [bind]. fold (exact_phases e (m_cfg m) s).
  destruct Hs as [(R & (n & x & Hx) & Hdn)|(Hnr & Hdn)]; [|now apply refusal_core].
  unfold exact_phases. destruct (rest_done e (m_cfg m) s Hdn) as (s' & Ex & _). rewrite Ex. split; [|intros _; split; discriminate].
  intros [H|(H & _)]; [contradiction|]. destruct (H R n x Hx).
Qed.
End P.
