(** Proofs for C61. *)
From Coq Require Import String List Bool NArith QArith Arith Lia.
From Verif Require Import Criterion Config EnumProofs SeqFlow SeqSpec SeqProofs SeqProofs2 SeqProofs3 ParFlow ParSpec ParProofs ParProofs2 ParProofs3 ParProofs4 ParProofs5 ParProofs6 ParProofs7 Report ReportSpec.
Import ListNotations.
Local Open Scope string_scope.
Local Open Scope list_scope.

(** ** reading back *)
Lemma amplitudes_map v : amplitudes (map (fun a : Q * Q => DArr [DReal (fst a); DReal (snd a)]) v) = Some v.
Proof. induction v as [|[a b] v IH]; cbn; [reflexivity|]. now rewrite IH. Qed.

Lemma as_of_json : forall j, as_json (of_json j) = Some j.
Proof.
  fix IH 1. intros [b|n|q|s| |l]; try reflexivity. cbn [of_json as_json].
  match goal with |- option_map _ (?G (map ?f l)) = _ => assert (E : G (map f l) = Some l) end.
  - induction l as [|[k v] l IHl]; [reflexivity|]. cbn [map fst snd]. rewrite IH. rewrite IHl. reflexivity.
  - rewrite E. reflexivity.
Qed.

(** nothing but zeros is hidden when no simulation was started *)
Definition sims_ok {Stim} (r : results Stim) : Prop :=
  r_started r = 0%N -> r_performed r = 0%N /\ r_cexIn r = None /\ r_cexOut r = None.
Definition full_ok (r : full_results) : Prop :=
  f_started r = 0%N -> f_performed r = 0%N /\ f_in r = [] /\ f_out1 r = [] /\ f_out2 r = [].
Definition view_of (r : full_results) : view :=
  mkView (f_c1 r) (f_c2 r) (f_pre r) (f_check r) (f_eq r) (f_started r) (f_performed r)
    (f_in r) (f_out1 r) (f_out2 r) (f_inst r) (f_chk r).

Lemma read_back r : full_ok r -> read_report (report_json r) = Some (view_of r).
Proof.
  intros H. destruct r as [[n1 q1 g1] [n2 q2 g2] cf pre chk eq st pe vi v1 v2 ins chs].
  unfold full_ok in H; cbn [f_started f_performed f_in f_out1 f_out2] in H.
  unfold report_json, sims_json, cex_json, view_of, circuit_json.
  cbn [f_c1 f_c2 f_cfg f_pre f_check f_eq f_started f_performed f_in f_out1 f_out2 f_inst f_chk ci_name ci_qubits ci_gates].
  generalize (of_json (config_json cf)) as dcf. intros dcf. clear cf.
  destruct (N.ltb_spec 0 st) as [Hs|Hs].
  - destruct vi as [|[a b] vi]; destruct v1 as [|[a1 b1] v1]; destruct v2 as [|[a2 b2] v2];
      cbn -[criterion_fromString criterion_toString N.ltb]; unfold vec_json;
      cbn -[criterion_fromString criterion_toString N.ltb];
      rewrite ?amplitudes_map, criterion_roundtrip; reflexivity.
  - destruct H as (-> & -> & -> & ->); [lia|]. assert (st = 0%N) as -> by lia.
    cbn -[criterion_fromString criterion_toString]. rewrite criterion_roundtrip. reflexivity.
Qed.

(** ** histories *)
Section H.
Context {Stim Gen : Type}.
Notation env := (env Stim Gen).
Notation mgr := (mgr Stim Gen).
Implicit Types (e : env) (m : mgr) (c : config) (r : results Stim) (g : Gen).

Lemma cex_inv e c g pp (s : pst Stim Gen) : ParSpec.reachable e c g pp s ->
  (0 < r_performed (p_res s))%N \/ (r_cexIn (p_res s) = None /\ r_cexOut (p_res s) = None).
Proof.
  intros [acts H]. revert H.
  apply (prun_inv (fun s => (0 < r_performed (p_res s))%N \/ (r_cexIn (p_res s) = None /\ r_cexOut (p_res s) = None))).
  2:{ right. split; reflexivity. }
  clear. intros a s s' HP H.
  assert (D : p_res s' = p_res s \/ r_performed (p_res s') = (r_performed (p_res s) + 1)%N \/
    (r_performed (p_res s') = r_performed (p_res s) /\ r_cexIn (p_res s') = r_cexIn (p_res s) /\ r_cexOut (p_res s') = r_cexOut (p_res s))).
  2:{ destruct D as [->|[->|(-> & -> & ->)]]; [exact HP|left; lia|exact HP]. }
  clear HP. destruct a; cbn [pstep] in H.
  - unfold main_step in H.
    destruct (p_main s) as [[|k ks]| |j| | | | | | |] eqn:M; try discriminate;
      repeat match type of H with
      | context [match ?x with _ => _ end] => destruct x eqn:?; try discriminate
      end; injection H as <-; cbn; auto.
    all: try (destruct k; cbn; auto).
    all: match goal with Hh : handle ?c ?r ?k ?q ?st = _ |- _ =>
      unfold handle in Hh; destruct q, k; cbn in Hh;
      repeat match type of Hh with context [if ?b then _ else _] => destruct b eqn:?; try discriminate end;
      try discriminate; injection Hh as <-; cbn; auto end.
  - unfold timeout_step in H. destruct (p_main s), (p_queue s); try discriminate. destruct (hasTimeout _); [|discriminate].
    injection H as <-. auto.
  - unfold worker_step in H. destruct (negb (live s)); [discriminate|].
    repeat match type of H with
      | context [match ?x with _ => _ end] => destruct x eqn:?; try discriminate
      end; injection H as <-; cbn; auto.
  - unfold abort_step in H. destruct (negb (live s)); [discriminate|].
    repeat match type of H with
      | context [match ?x with _ => _ end] => destruct x eqn:?; try discriminate
      end; injection H as <-; cbn; auto.
Qed.
Lemma par_sims_ok e c g pp s : sane_sims c -> enough_threads e c -> par_returned e c g pp s -> sims_ok (p_res s).
Proof.
  intros H1 H2 H3 H0. destruct (pf_counts e c g pp s H1 H2 H3) as (A & _).
  destruct (cex_inv e c g pp s (proj1 H3)) as [H|[H H']]; [lia|]. repeat split; auto. lia.
Qed.
Lemma seq_sims_ok fuel pf e m m' : choose_flow e (m_cfg m) = FSequential -> sims_ok (m_res m) ->
  run fuel pf e m = Returned m' -> sims_ok (m_res m').
Proof.
  intros F H R H0. rewrite run_sequential in R by exact F.
  apply seq_summary in R; [|reflexivity|reflexivity]. cbn [start_run m_cfg m_gen m_res] in R.
  destruct R as (_ & l & _ & _ & Hs & Hp & _ & Hc). cbn [set_eq r_started r_performed r_cexIn r_cexOut] in Hs, Hp, Hc.
  assert (l = []) as -> by (destruct l; [reflexivity|cbn [length] in Hs; lia]). cbn [length] in Hs, Hp.
  destruct H as (A & B & C); [lia|].
  destruct Hc as [(l0 & x & E & _)|(Ci & Co & _)]; [destruct l0; discriminate|].
  rewrite Ci, Co. repeat split; auto. lia.
Qed.
Lemma sym_res fuel pf e m m' : choose_flow e (m_cfg m) = FSymbolic -> run fuel pf e m = Returned m' ->
  r_started (m_res m') = r_started (m_res m) /\ r_performed (m_res m') = r_performed (m_res m) /\
  r_cexIn (m_res m') = r_cexIn (m_res m) /\ r_cexOut (m_res m') = r_cexOut (m_res m).
Proof.
  intros F R. rewrite run_symbolic in R by exact F. unfold checkSymbolic in R.
  repeat match type of R with context [if ?b then _ else _] => destruct b; cbn in R; try discriminate end;
    injection R as <-; cbn; auto.
Qed.
Lemma run_sims_ok fuel pf e m m' : parallel_ok e pf m -> sims_ok (m_res m) ->
  run fuel pf e m = Returned m' -> sims_ok (m_res m').
Proof.
  intros HP H R. destruct (choose_flow e (m_cfg m)) eqn:F.
  - unfold run in R. rewrite F in R. injection R as <-. exact H.
  - unfold run in R. rewrite F in R. injection R as <-. exact H.
  - eapply seq_sims_ok; eauto.
  - destruct (HP F) as (_ & S & T & P). unfold run in R. rewrite F in R. destruct (P _ R) as (s & pp & Hs & ->).
    eapply par_sims_ok; eauto.
  - destruct (sym_res _ _ _ _ _ F R) as (A & B & C & D). intros H0. rewrite B, C, D. apply H. congruence.
Qed.
Lemma rrun_run fuel pf e w (m m' : rmgr Stim Gen) : rrun fuel pf e w m = Returned m' ->
  run fuel pf e (rm_mgr m) = Returned (rm_mgr m') /\ rm_c1 m' = w_c1 w /\ rm_c2 m' = w_c2 w /\
  rm_cfg m' = m_cfg (rm_mgr m) /\
  (choose_flow e (m_cfg (rm_mgr m)) = FNothing \/ choose_flow e (m_cfg (rm_mgr m)) = FTrivial -> rm_chk m' = rm_chk m) /\
  (choose_flow e (m_cfg (rm_mgr m)) <> FNothing -> choose_flow e (m_cfg (rm_mgr m)) <> FTrivial ->
    rm_chk m' = rm_chk m ++ map (checker_json (w_nodes w) (w_time w)) (m_checkers (rm_mgr m'))).
Proof.
  unfold rrun. destruct (run fuel pf e (rm_mgr m)); try discriminate.
  destruct (choose_flow e (m_cfg (rm_mgr m))); intros H; injection H as <-; cbn; repeat split; auto;
    try (intros [?|?]; discriminate); congruence.
Qed.
Lemma history_sims_ok (m : rmgr Stim Gen) : history m -> sims_ok (m_res (rm_mgr m)).
Proof.
  induction 1 as [dc c g pp|fuel pf e w m m' H IH HP R|dc e m H IH|c m H IH].
  - intros _. repeat split.
  - apply rrun_run in R as (R & _). eapply run_sims_ok; eauto.
  - intros _. repeat split.
  - exact IH.
Qed.
Lemma history_full_ok vi vo1 vo2 (m : rmgr Stim Gen) : history m -> full_ok (get_results vi vo1 vo2 m).
Proof.
  intros H. apply history_sims_ok in H. unfold full_ok, get_results. cbn. intros H0. destruct (H H0) as (A & -> & ->). auto.
Qed.

(** ** sections *)
Lemma sims_section (r : full_results) : field "simulations" (report_json r) <> None <-> (0 < f_started r)%N.
Proof.
  unfold report_json, sims_json. cbn. destruct (N.ltb_spec 0 (f_started r)); cbn; split; try congruence; lia.
Qed.
Lemma cex_section (r : full_results) : (0 < f_started r)%N ->
  (path ["simulations"; "verification_cex"] (report_json r) <> None <-> f_in r <> [] \/ f_out1 r <> [] \/ f_out2 r <> []).
Proof.
  intros H. unfold report_json, sims_json, cex_json. destruct (N.ltb_spec 0 (f_started r)); [|lia].
  destruct (f_in r), (f_out1 r), (f_out2 r); cbn; intuition congruence.
Qed.

(** ** entries of the checkers *)
Lemma read_checker_json mn rt (k : checker Stim) : read_checker (checker_json mn rt k) = Some (kind_name (k_kind k), k_eq k).
Proof.
  unfold read_checker, checker_json. destruct k as [k q s]. cbn [k_kind k_eq].
  destruct k; cbn -[criterion_fromString criterion_toString]; now rewrite criterion_roundtrip.
Qed.
Lemma kind_name_inj a b : kind_name a = kind_name b -> a = b.
Proof. destruct a, b; cbn; congruence. Qed.

(** the checkers a sequential run adds *)
Definition enabled (c : config) (k : kind) : bool :=
  match k with KSim => runSimulationChecker (exec c) | KAlt => runAlternatingChecker (exec c)
             | KCon => runConstructionChecker (exec c) | KZX => runZXChecker (exec c) end.
Lemma exact_chk k en v th e c s s' : seqExact k en v th e c s = inl (Returned s') ->
  (s_chk s' = s_chk s /\ r_eq (s_res s') = r_eq (s_res s)) \/
  (en = true /\ exists q, s_chk s' = s_chk s ++ [mkChecker k q None] /\ (r_eq (s_res s') = r_eq (s_res s) \/ r_eq (s_res s') = q)).
Proof.
  unfold seqExact. destruct en; cbn [negb]; [|intros H; injection H as <-; auto].
  destruct (reads_done e c s); [intros H; injection H as <-; auto|].
  destruct (ctor_throws e c k); [discriminate|].
  destruct (reads_done e c (tick s)); [intros H; injection H as <-; right; split; [reflexivity|]; cbn; eauto|].
  destruct th; [discriminate|].
  destruct (if interrupted e c (s_t (tick (tick s))) then NoInformation else mcrit v) eqn:E;
    intros H; injection H as <-; right; split; try reflexivity; cbn; eauto.
Qed.
Lemma zx_chk e c s s' : seqZX e c s = inl (Returned s') ->
  (s_chk s' = s_chk s /\ r_eq (s_res s') = r_eq (s_res s)) \/
  (onlyZXCheckerConfigured c = true /\ e_transformable e = false /\ s_chk s' = [] /\ r_eq (s_res s') = NoInformation) \/
  (runZXChecker (exec c) = true /\ e_transformable e = true /\ exists q, s_chk s' = s_chk s ++ [mkChecker KZX q None] /\
     (r_eq (s_res s') = r_eq (s_res s) \/ r_eq (s_res s') = q \/ r_eq (s_res s') = NoInformation)).
Proof.
  unfold seqZX. destruct (runZXChecker (exec c)); cbn [negb]; [|intros H; injection H as <-; auto].
  destruct (reads_done e c s); [intros H; injection H as <-; auto|].
  destruct (e_transformable e).
  2:{ destruct (onlyZXCheckerConfigured c); intros H; injection H as <-; [right; left; repeat split|left; split; reflexivity]. }
  destruct (negb (e_zx_perm_ok e)); [discriminate|].
  destruct (reads_done e c (tick s)).
  { intros H; injection H as <-. right. right. do 2 (split; [reflexivity|]). cbn. eauto. }
  destruct (if interrupted e c (s_t (tick (tick s))) then NoInformation else zcrit (e_ancilla e) (e_zx e));
  repeat match goal with |- context [if ?b then _ else _] => destruct b end; intros H; try discriminate; injection H as <-;
    right; right; do 2 (split; [reflexivity|]); cbn; eauto 6.
Qed.

Lemma loop_verdict fuel : forall e c t q s r g t' q' s' r' g', r_eq r <> NotEquivalent ->
  simLoop fuel e c t q s r g = LDone t' q' s' r' g' ->
  r_eq r' = r_eq r \/ r_eq r' = ProbablyEquivalent \/ (r_eq r' = NotEquivalent /\ q' = NotEquivalent).
Proof.
  induction fuel as [|fuel IH]; intros e c t q s r g t' q' s' r' g' Hr H; cbn [simLoop] in H; [discriminate|].
  destruct (simulationsFinished c r); [injection H; intros; subst; auto|].
  destruct (fired e c t); [injection H; intros; subst; auto|].
  destruct (e_gen e g) as [[st g1]|]; [|discriminate].
  destruct (if interrupted e c (S t) then q else scrit (e_sim e st)) eqn:Eq; try discriminate.
  1: injection H; intros; subst; cbn; auto.
  all: apply IH in H; [|discriminate]; cbn in H; destruct H as [->|[->|(-> & ->)]]; auto.
Qed.
Lemma not_definitive_ni : ~ definitive NoInformation.
Proof. unfold definitive. intuition discriminate. Qed.
Lemma not_definitive_pe : ~ definitive ProbablyEquivalent.
Proof. unfold definitive. intuition discriminate. Qed.
Lemma filter4 (f : kind -> bool) : filter f [KSim; KAlt; KCon; KZX] =
  (if f KSim then [KSim] else []) ++ (if f KAlt then [KAlt] else []) ++ (if f KCon then [KCon] else []) ++ (if f KZX then [KZX] else []).
Proof. cbn. destruct (f KSim), (f KAlt), (f KCon), (f KZX); reflexivity. Qed.
Lemma seq_chk fuel pf e m m' : choose_flow e (m_cfg m) = FSequential -> run fuel pf e m = Returned m' ->
  (onlyZXCheckerConfigured (m_cfg m) = true /\ e_transformable e = false /\ m_checkers m' = [] /\ r_eq (m_res m') = NoInformation) \/
  exists new ks, m_checkers m' = m_checkers m ++ new /\ map k_kind new = filter (fun k => enabled (m_cfg m) k && ks k) [KSim; KAlt; KCon; KZX] /\
    (definitive (r_eq (m_res m')) -> exists k, In k new /\ k_eq k = r_eq (m_res m')).
Proof.
  intros F R. rewrite run_sequential in R by exact F. apply checkSequential_phases in R. cbn [start_run m_cfg m_done m_checkers m_res m_gen] in R.
  destruct R as (s1 & s2 & s3 & s4 & H1 & H2 & H3 & H4 & HR & _ & _ & _ & HK). set (c := m_cfg m) in *. rewrite HR, HK. clear HR HK.
  apply seqSim_inl in H1; [|discriminate].
  assert (A1 : (s_chk s1 = m_checkers m /\ r_eq (s_res s1) = NoInformation) \/
     (runSimulationChecker (exec c) = true /\ exists k, k_kind k = KSim /\ s_chk s1 = m_checkers m ++ [k] /\
        (definitive (r_eq (s_res s1)) -> k_eq k = r_eq (s_res s1)))).
  { destruct H1 as [(_ & ->)|(E & t & q & stm & r & HL & _ & HC & _ & HR)]; [left; split; reflexivity|right].
    split; [exact E|]. exists (mkChecker KSim q stm). split; [reflexivity|]. split; [exact HC|].
    intros HD. cbn [k_eq]. apply loop_verdict in HL; [|discriminate]. cbn [s_res set_eq r_eq] in HL.
    assert (E1 : r_eq (s_res s1) = r_eq r) by (rewrite HR; destruct (r_eq r) eqn:Er; cbn [set_cex r_eq]; congruence).
    rewrite E1 in HD |- *. destruct HL as [HL|[HL|(HL & ->)]]; [| |now rewrite HL]; rewrite HL in HD;
      [destruct (not_definitive_ni HD)|destruct (not_definitive_pe HD)]. }
  clear H1. apply exact_chk in H2. apply exact_chk in H3. apply zx_chk in H4.
  destruct H4 as [(K4 & Q4)|[(O4 & T4 & K4 & Q4)|(E4 & _ & q4 & K4 & Q4)]].
  2:{ left. auto. }
  all: right.
  all: destruct A1 as [(K1 & Q1)|(E1 & k1 & N1 & K1 & Q1)].
  all: destruct H2 as [(K2 & Q2)|(E2 & q2 & K2 & Q2)].
  all: destruct H3 as [(K3 & Q3)|(E3 & q3 & K3 & Q3)].
  all: rewrite ?K4, ?K3, ?K2, ?K1, <- ?app_assoc; cbn [List.app].
  all: match goal with
       | |- exists new ks, ?a = ?a ++ new /\ _ => exists [], (fun _ => false); rewrite app_nil_r
       | |- exists new ks, ?a ++ ?n = ?a ++ new /\ _ => exists n,
           (fun k => existsb (fun x => match k, k_kind x with KSim, KSim | KAlt, KAlt | KCon, KCon | KZX, KZX => true | _, _ => false end) n)
       end.
  all: split; [reflexivity|]; split;
    [rewrite filter4; unfold enabled; cbn [List.app existsb k_kind map orb]; rewrite ?N1, ?E1, ?E2, ?E3, ?E4, ?andb_false_r; reflexivity|].
  all: intros HD; pose proof not_definitive_ni as X.
  all: repeat match goal with H : _ \/ _ |- _ => destruct H end.
  all: try (exfalso; apply X; congruence).
  all: first [ eexists; split; [left; reflexivity|cbn [k_eq]; first [congruence|rewrite Q1; congruence]]
             | eexists; split; [right; left; reflexivity|cbn [k_eq]; congruence]
             | eexists; split; [right; right; left; reflexivity|cbn [k_eq]; congruence]
             | eexists; split; [right; right; right; left; reflexivity|cbn [k_eq]; congruence] | idtac].
Qed.

Lemma filter_names c (names : kind -> bool) :
  map kind_name (filter (fun k => enabled c k && names k) [KSim; KAlt; KCon; KZX]) =
  (let listed (k : kind) (en : bool) := if en && names k then [kind_name k] else [] in
   listed KSim (runSimulationChecker (exec c)) ++ listed KAlt (runAlternatingChecker (exec c)) ++
   listed KCon (runConstructionChecker (exec c)) ++ listed KZX (runZXChecker (exec c))).
Proof. rewrite filter4, !map_app. cbn zeta. unfold enabled. repeat f_equal; destruct (_ && _); reflexivity. Qed.

Lemma seq_rows fuel pf e w (m m' : rmgr Stim Gen) :
  choose_flow e (m_cfg (rm_mgr m)) = FSequential -> m_checkers (rm_mgr m) = [] -> rm_chk m = [] ->
  rrun fuel pf e w m = Returned m' ->
  exists names : kind -> bool,
    let c := m_cfg (rm_mgr m) in
    let listed (k : kind) (enabled : bool) := if enabled && names k then [kind_name k] else [] in
    exists rows : list (string * criterion),
      map read_checker (rm_chk m') = map Some rows /\
      map fst rows = listed KSim (runSimulationChecker (exec c)) ++ listed KAlt (runAlternatingChecker (exec c)) ++
                     listed KCon (runConstructionChecker (exec c)) ++ listed KZX (runZXChecker (exec c)) /\
      (definitive (r_eq (m_res (rm_mgr m'))) -> In (r_eq (m_res (rm_mgr m'))) (map snd rows)).
Proof.
  intros F K0 C0 R. apply rrun_run in R as (R & _ & _ & _ & _ & C). rewrite C0 in C. cbn [List.app] in C.
  rewrite C by congruence. clear C. rewrite map_map.
  rewrite (map_ext _ (fun k => Some (kind_name (k_kind k), k_eq k))) by (intros; apply read_checker_json).
  apply seq_chk in R; [|exact F]. rewrite K0 in R. cbn [List.app] in R.
  destruct R as [(_ & _ & -> & E)|(new & ks & -> & HK & HD)].
  - exists (fun _ => false). cbn zeta. exists []. cbn. rewrite !andb_false_r. repeat split.
    rewrite E. intros H. destruct (not_definitive_ni H).
  - exists ks. cbn zeta. exists (map (fun k => (kind_name (k_kind k), k_eq k)) new).
    rewrite !map_map. cbn [fst snd]. split; [reflexivity|]. split.
    + rewrite <- (map_map k_kind kind_name), HK. apply filter_names.
    + intros D. destruct (HD D) as (k & Hk & <-). now apply in_map.
Qed.
End H.
