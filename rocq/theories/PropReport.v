(** C61: the JSON report of the results.  Vocabulary: ReportSpec.v (a reader of JSON documents that knows nothing of
    the writer, and the histories of a manager).  Model: Report.v on top of SeqFlow.v / ParFlow.v. *)
From Coq Require Import String List Bool NArith QArith.
From Verif Require Import Criterion Config SeqFlow SeqSpec SeqDemo ParFlow ParSpec Report ReportSpec ReportProofs.
Import ListNotations.
Local Open Scope string_scope.
Local Open Scope list_scope.

(** Whatever sequence of runs, resets and changes of the configuration a manager has gone through, a reader of its
    report recovers the verdict, the numbers of simulations, the counterexample, the circuits' data and the
    checkers' entries: leaving out the section on simulations when none was started hides nothing. *)
Theorem C61_report_is_faithful {Stim Gen} (vi vo1 vo2 : Stim -> cvec) (m : rmgr Stim Gen) :
  history m ->
  let r := m_res (rm_mgr m) in
  read_report (report_json (get_results vi vo1 vo2 m)) = Some
    (mkView (rm_c1 m) (rm_c2 m) (r_preproc r) (rm_check m) (r_eq r) (r_started r) (r_performed r)
       (stored vi (r_cexIn r)) (stored vo1 (r_cexOut r)) (stored vo2 (r_cexOut r)) 0 (rm_chk m)).
Proof. intros H. exact (read_back _ (history_full_ok vi vo1 vo2 m H)). Qed.
Print Assumptions C61_report_is_faithful.

(** the same for any results object of which only simulations can have left traces *)
Theorem C61_any_results (r : full_results) :
  (f_started r = 0%N -> f_performed r = 0%N /\ f_in r = [] /\ f_out1 r = [] /\ f_out2 r = []) ->
  read_report (report_json r) = Some
    (mkView (f_c1 r) (f_c2 r) (f_pre r) (f_check r) (f_eq r) (f_started r) (f_performed r)
       (f_in r) (f_out1 r) (f_out2 r) (f_inst r) (f_chk r)).
Proof. exact (read_back r). Qed.
Print Assumptions C61_any_results.

(** which sections are present *)
Theorem C61_sections (r : full_results) :
  (field "simulations" (report_json r) <> None <-> (0 < f_started r)%N) /\
  ((0 < f_started r)%N ->
    (path ["simulations"; "verification_cex"] (report_json r) <> None <-> f_in r <> [] \/ f_out1 r <> [] \/ f_out2 r <> [])) /\
  (exists d, field "configuration" (report_json r) = Some d /\ as_json d = Some (config_json (f_cfg r))).
Proof. exact (conj (sims_section r) (conj (cex_section r) (ex_intro _ _ (conj eq_refl (as_of_json _))))). Qed.
Print Assumptions C61_sections.

(** The report of a run describes the circuits and the configuration at the beginning of that run, and gains one
    entry per checker the manager holds after it, with the checker's name, verdict, runtime and (except for the ZX checker) maximal number of nodes; trivial runs (nothing to
    execute, both circuits empty) add none. *)
Theorem C61_run_reports {Stim Gen} fuel pf (e : env Stim Gen) w (m m' : rmgr Stim Gen) :
  rrun fuel pf e w m = Returned m' ->
  rm_c1 m' = w_c1 w /\ rm_c2 m' = w_c2 w /\ rm_cfg m' = m_cfg (rm_mgr m) /\
  run fuel pf e (rm_mgr m) = Returned (rm_mgr m') /\
  (choose_flow e (m_cfg (rm_mgr m)) = FNothing \/ choose_flow e (m_cfg (rm_mgr m)) = FTrivial -> rm_chk m' = rm_chk m) /\
  (choose_flow e (m_cfg (rm_mgr m)) <> FNothing -> choose_flow e (m_cfg (rm_mgr m)) <> FTrivial ->
    exists entries, rm_chk m' = rm_chk m ++ entries /\
      map read_checker entries = map (fun k => Some (kind_name (k_kind k), k_eq k)) (m_checkers (rm_mgr m')) /\
      map read_time entries = map (fun k => Some (w_time w k)) (m_checkers (rm_mgr m')) /\
      map read_nodes entries = map (fun k => if on_diagrams (k_kind k) then Some (w_nodes w k) else None) (m_checkers (rm_mgr m'))).
Proof.
  intros H. destruct (rrun_run fuel pf e w m m' H) as (A & B & C & D & E & F). repeat split; auto.
  intros X Y. eexists. split; [exact (F X Y)|]. rewrite !map_map. split; [|split]; apply map_ext; intros k; [apply read_checker_json|reflexivity|destruct k as [[] ?]; reflexivity].
Qed.
Print Assumptions C61_run_reports.

(** After reset() the report is that of a manager on which nothing has been run. *)
Theorem C61_reset {Stim Gen} (vi vo1 vo2 : Stim -> cvec) dc (e : env Stim Gen) (m : rmgr Stim Gen) :
  read_report (report_json (get_results vi vo1 vo2 (rreset dc e m))) = Some (mkView (mkInfo "" 0 0) (mkInfo "" 0 0) 0 0 NoInformation 0 0 [] [] [] 0 []) /\
  report_json (get_results vi vo1 vo2 (rreset dc e m)) = report_json (get_results vi vo1 vo2 (rfresh dc (fresh (m_cfg (rm_mgr m)) (m_gen (rm_mgr m)) 0))).
Proof. split; reflexivity. Qed.
Print Assumptions C61_reset.

(** In a sequential run on a manager without checkers (new or reset) the entries are those of different checkers,
    all enabled in the configuration, in the order simulation, alternating, construction, ZX; and a definitive
    verdict is the verdict of one of the entries. *)
Theorem C61_entries_of_a_sequential_run {Stim Gen} fuel pf (e : env Stim Gen) w (m m' : rmgr Stim Gen) :
  choose_flow e (m_cfg (rm_mgr m)) = FSequential -> m_checkers (rm_mgr m) = [] -> rm_chk m = [] ->
  rrun fuel pf e w m = Returned m' ->
  exists names : kind -> bool,
    let c := m_cfg (rm_mgr m) in
    let listed (k : kind) (enabled : bool) := if enabled && names k then [kind_name k] else [] in
    exists rows : list (string * criterion),
      map read_checker (rm_chk m') = map Some rows /\
      map fst rows = listed KSim (runSimulationChecker (exec c)) ++ listed KAlt (runAlternatingChecker (exec c)) ++
                     listed KCon (runConstructionChecker (exec c)) ++ listed KZX (runZXChecker (exec c)) /\
      (definitive (r_eq (m_res (rm_mgr m'))) -> In (r_eq (m_res (rm_mgr m'))) (map snd rows)).
Proof. exact (seq_rows fuel pf e w m m'). Qed.
Print Assumptions C61_entries_of_a_sequential_run.

(** Without a reset in between, the entries of earlier runs are listed again: the report does not have one entry
    per checker run. *)
Theorem C61_entries_after_rerun_refuted :
  let e := demo_env (fun _ => false) MEquivalent MEquivalent ZFail true false None in
  let c := demo_cfg true false false false 0 0 false in
  let w := mkWorld (mkInfo "a" 2 3) (mkInfo "b" 2 4) (fun _ => 7%N) (fun _ => 1%Q) 2%Q in
  exists m1 m2, rrun 20 no_par e w (rfresh c (fresh c 0%N 0)) = Returned m1 /\ rrun 20 no_par e w m1 = Returned m2 /\
    map read_checker (rm_chk m1) = [Some ("decision_diagram_construction", Equivalent)] /\
    map read_checker (rm_chk m2) = [Some ("decision_diagram_construction", Equivalent);
      Some ("decision_diagram_construction", Equivalent); Some ("decision_diagram_construction", Equivalent)].
Proof. cbn zeta. eexists. eexists. split; [vm_compute; reflexivity|]. split; [vm_compute; reflexivity|]. split; vm_compute; reflexivity. Qed.
Print Assumptions C61_entries_after_rerun_refuted.

(** a refuted equivalence with a counterexample of two amplitudes, read back from the report *)
Example C61_example :
  let e := demo_env (N.eqb 1) MNotEquivalent MNotEquivalent ZFail true false None in
  let c := demo_cfg false true true false 3 0 true in
  let w := mkWorld (mkInfo "a" 1 3) (mkInfo "b" 1 4) (fun _ => 7%N) (fun _ => 1%Q) 2%Q in
  let vi := fun s : N => [(1%Q, 0%Q); (0%Q, 1%Q)] in
  exists m, rrun 20 no_par e w (rfresh c (fresh c 0%N 0)) = Returned m /\ history m /\
    read_report (report_json (get_results vi vi vi m)) = Some
      (mkView (mkInfo "a" 1 3) (mkInfo "b" 1 4) 0 2 NotEquivalent 2 2 (vi 1%N) (vi 1%N) (vi 1%N) 0 (rm_chk m)) /\
    map read_checker (rm_chk m) = [Some ("decision_diagram_simulation", NotEquivalent)].
Proof.
  cbn zeta. eexists. split; [vm_compute; reflexivity|]. split; [|split; vm_compute; reflexivity].
  eapply (h_run 20 no_par (demo_env (N.eqb 1) MNotEquivalent MNotEquivalent ZFail true false None)
    (mkWorld (mkInfo "a" 1 3) (mkInfo "b" 1 4) (fun _ => 7%N) (fun _ => 1%Q) 2%Q)
    (rfresh (demo_cfg false true true false 3 0 true) (fresh (demo_cfg false true true false 3 0 true) 0%N 0))).
  - apply h_new.
  - intros H. discriminate H.
  - vm_compute. reflexivity.
Qed.
