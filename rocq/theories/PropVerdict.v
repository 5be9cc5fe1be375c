(** C58: the exact result of an uninterrupted sequential run.
    Vocabulary: VerdictSpec.v (decision table), SeqSpec.v.  Model: SeqFlow.v. *)
From Coq Require Import String List Bool NArith QArith.
From Verif Require Import Criterion Config SeqFlow SeqSpec SeqDemo VerdictSpec VerdictProofs.
Import ListNotations.
Local Open Scope list_scope.

(** [l]: the stimuli the generator hands out, as many as simulations are configured.  If one of them
    distinguishes the circuits, the run reports 'not equivalent', has performed exactly the simulations up
    to the first distinguishing stimulus, and stores that one (if asked to). *)
Theorem C58_refuting_stimulus {Stim Gen} fuel pf (e : env Stim Gen) m l g' n x :
  choose_flow e (m_cfg m) = FSequential -> never_fires e (m_cfg m) -> no_exceptions e (m_cfg m) ->
  r_performed (m_res m) = 0%N -> draws e (m_gen m) l g' -> N.of_nat (length l) = maxSims (sim (m_cfg m)) ->
  (length l < fuel)%nat ->
  runSimulationChecker (exec (m_cfg m)) = true -> first_refuting e l n x ->
  exists m', run fuel pf e m = Returned m' /\
    m_res m' = mkResults NotEquivalent (r_started (m_res m) + n) n
      (if storeCEXinput (sim (m_cfg m)) then Some x else r_cexIn (m_res m))
      (if storeCEXoutput (sim (m_cfg m)) then Some x else r_cexOut (m_res m)) (r_preproc (m_res m)).
Proof. exact (verdict_refuted fuel pf e m l g' n x). Qed.
Print Assumptions C58_refuting_stimulus.

(** Otherwise all configured simulations are performed and the verdict is the table's. *)
Theorem C58_no_refuting_stimulus {Stim Gen} fuel pf (e : env Stim Gen) m l g' :
  choose_flow e (m_cfg m) = FSequential -> never_fires e (m_cfg m) -> no_exceptions e (m_cfg m) ->
  r_performed (m_res m) = 0%N -> draws e (m_gen m) l g' -> N.of_nat (length l) = maxSims (sim (m_cfg m)) ->
  (length l < fuel)%nat ->
  (runSimulationChecker (exec (m_cfg m)) = true -> forall n x, ~ first_refuting e l n x) ->
  (runSimulationChecker (exec (m_cfg m)) = true -> l = [] -> e_ndebug e = true) ->
  let n := if runSimulationChecker (exec (m_cfg m)) then maxSims (sim (m_cfg m)) else 0%N in
  exists m', run fuel pf e m = Returned m' /\
    m_res m' = mkResults (table e (m_cfg m) (negb (N.eqb n 0))) (r_started (m_res m) + n) n
      (r_cexIn (m_res m)) (r_cexOut (m_res m)) (r_preproc (m_res m)).
Proof. exact (verdict_agree fuel pf e m l g'). Qed.
Print Assumptions C58_no_refuting_stimulus.

Lemma draws_example bad alt con zx tr anc :
  draws (demo_env bad alt con zx tr anc None) 0%N [0%N; 1%N; 2%N] 3%N.
Proof. repeat (econstructor; [reflexivity|]). constructor. Qed.

(** the second of three stimuli distinguishes the circuits *)
Example C58_example_refuted :
  let e := demo_env (N.eqb 1) MNotEquivalent MNotEquivalent ZFail true false None in
  let c := demo_cfg true true true true 3 0 true in
  choose_flow e c = FSequential /\ never_fires e c /\ no_exceptions e c /\
  first_refuting e [0%N; 1%N; 2%N] 2%N 1%N /\
  exists m', run 20 no_par e (fresh c 0%N 0) = Returned m' /\
    m_res m' = mkResults NotEquivalent 2 2 (Some 1%N) (Some 1%N) 0.
Proof.
  cbn zeta. split; [reflexivity|]. split; [intros t; reflexivity|]. split; [repeat split|].
  split.
  - apply (first_at _ _ _ _ [0%N] [2%N]); try reflexivity. repeat constructor. discriminate.
  - eexists. split; vm_compute; reflexivity.
Qed.

(** simulations agree, the ZX-checker fails to reduce: the heuristics contradict each other *)
Example C58_example_contradiction :
  let e := demo_env (fun _ => false) MNotEquivalent MNotEquivalent ZFail true false None in
  let c := demo_cfg false true false true 3 0 true in
  choose_flow e c = FSequential /\ never_fires e c /\ no_exceptions e c /\
  draws e 0%N [0%N; 1%N; 2%N] 3%N /\ (forall n x, ~ first_refuting e [0%N; 1%N; 2%N] n x) /\
  table e c true = NoInformation /\
  exists m', run 20 no_par e (fresh c 0%N 0) = Returned m' /\
    m_res m' = mkResults NoInformation 3 3 None None 0.
Proof.
  cbn zeta. split; [reflexivity|]. split; [intros t; reflexivity|]. split; [repeat split|].
  split; [apply draws_example|]. split; [intros n x [l1 l2 _ _ H _]; discriminate|].
  split; [reflexivity|]. eexists. split; vm_compute; reflexivity.
Qed.
