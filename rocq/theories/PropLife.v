(** C85: the whole life of a manager: settings, reset() and runs in any flow, in any order. Only statements; the proofs are in LifeProofs.v. *)
From Coq Require Import String List Bool NArith QArith Arith Lia.
From Verif Require Import Criterion Config SeqFlow SeqSpec SeqThrow SeqDemo ParFlow ParSpec ParDemo ParAgain ParAgainSpec LifeSpec LifeProofs.
Import ListNotations.
Local Open Scope list_scope.
Local Open Scope nat_scope.

(** whatever was called on a manager: a definitive verdict is due to empty circuits, or was computed, under the settings of a run since the last
    reset, by a kind of checker that was used by a run since the last reset (of simulations only refutations, for stimuli that could be drawn
    in a run since the last reset) *)
Theorem C85_verdict_source {Stim Gen} (used : list (settings Stim Gen)) (m : manager Stim Gen) : life used m -> definitive (r_eq (lf_res m)) ->
  (exists x, In x used /\ e_empty (fst x) = true /\ r_eq (lf_res m) = Equivalent) \/
  (exists x y k, In x used /\ finds used x k (r_eq (lf_res m)) /\ In y used /\ uses y k).
Proof. exact (life_source used m). Qed.
Print Assumptions C85_verdict_source.

(** so it is true, if the checkers used since the last reset tell the truth under each of the settings *)
Theorem C85_sound {Stim Gen} (truth : criterion -> Prop) (used : list (settings Stim Gen)) (m : manager Stim Gen) : life used m ->
  (forall x, In x used -> e_empty (fst x) = true -> truth Equivalent) ->
  (forall (x y : settings Stim Gen) k q, In x used -> In y used -> uses y k -> finds used x k q -> definitive q -> truth q) ->
  definitive (r_eq (lf_res m)) -> truth (r_eq (lf_res m)).
Proof. exact (life_sound truth used m). Qed.
Print Assumptions C85_sound.

(** the same for each checker that the manager holds *)
Theorem C85_checkers {Stim Gen} (used : list (settings Stim Gen)) (m : manager Stim Gen) ck b : life used m ->
  In (Some ck, b) (lf_chk m) -> k_eq ck <> NoInformation ->
  exists x y : settings Stim Gen, In x used /\ computes (fst x) (drawable_in used) (k_kind ck) (k_eq ck) /\ In y used /\ uses y (k_kind ck).
Proof. exact (life_checkers used m ck b). Qed.
Print Assumptions C85_checkers.

(** *** runs that throw *)
(** [run_left] says what a run outside the parallel flow leaves exactly when it throws; *)
Theorem C85_throws_iff_left {Stim Gen} fuel pf (e : env Stim Gen) (m : mgr Stim Gen) : choose_flow e (m_cfg m) <> FParallel ->
  (run fuel pf e m = Thrown <-> exists s, run_left fuel e m = Some s).
Proof. exact (left_iff fuel pf e m). Qed.
Print Assumptions C85_throws_iff_left.

(** a run that throws leaves no definitive verdict, not even that of a run before, and keeps the checkers that were there, *)
Theorem C85_throw_leaves_no_verdict {Stim Gen} fuel (e : env Stim Gen) (m : mgr Stim Gen) s : run_left fuel e m = Some s ->
  ~ definitive (r_eq (s_res s)) /\ exists new, s_chk s = m_checkers m ++ new.
Proof. intros H. split; [exact (proj2 (left_facts fuel e m s H))|exact (left_keeps fuel e m s H)]. Qed.
Print Assumptions C85_throw_leaves_no_verdict.

(** and so does a parallel run, whatever the manager was used for before *)
Theorem C85_parallel_throw_leaves_no_verdict {Stim Gen} (e : env Stim Gen) c l r g s : reached_again e c l r g s -> p_main s = MThrown ->
  ~ definitive (r_eq (p_res s)).
Proof. exact (thrown_no_verdict e c l r g s). Qed.
Print Assumptions C85_parallel_throw_leaves_no_verdict.

(** *** what one might expect in addition, and what is wrong *)
(** simulations only, one of which refutes; then the alternating and the construction checker, which find the circuits equivalent *)
Definition lf_env : env N N := demo_env (fun _ => true) MEquivalent MEquivalent ZEquivalent true false None.
Definition lf_sims : config := pdemo_cfg 2 false true false false 4 0 true.
Definition lf_exact : config := pdemo_cfg 2 true false true false 1 0 true.
Definition lf_new (c : config) : manager N N := mkManager c [] (mkResults NoInformation 0 0 None None 0%Q) 0%N.
(** one parallel run of the manager of life [L] on schedule [acts] *)
Ltac par_step L e acts :=
  match type of L with life ?u ?m =>
    let s := eval vm_compute in (arun e acts (par_again e (lf_cfg m) (lf_chk m) (lf_res m) (lf_gen m))) in
    match s with Some ?s' =>
      apply (fun H => life_run_parallel u m e s' H eq_refl (ex_intro _ acts eq_refl) (or_introl eq_refl)) in L end
  end.

(** "the verdict comes from a checker that is switched on" (here no simulation is, and the exact checkers would not refute), and
    "there are at most as many simulations performed as started" *)
Theorem C85_switched_off_refuted : exists used (m : manager N N), life used m /\
  (exists x rest, used = x :: rest /\ forall k, uses x k -> forall q, computes (fst x) (fun _ => True) k q -> q <> NotEquivalent) /\
  r_eq (lf_res m) = NotEquivalent /\ (r_started (lf_res m) < r_performed (lf_res m))%N.
Proof.
  pose proof (life_new lf_sims 0%N 0%Q : life (Stim := N) [] (lf_new lf_sims)) as L.
  par_step L lf_env (mains 3 ++ works 0 5 ++ mains 4 ++ works 1 4 ++ mains 1).
  apply (life_configure _ _ lf_exact) in L.
  par_step L lf_env (mains 3 ++ works 0 3 ++ mains 4 ++ works 1 3 ++ mains 1).
  par_step L lf_env (mains 3 ++ works 0 3 ++ mains 4 ++ works 1 3 ++ mains 1).
  eexists. eexists. split; [exact L|].
split; [|split; reflexivity]. eexists. eexists. split; [reflexivity|].
    intros [| | |] U q; cbn in *; try discriminate; intros H; intuition congruence.
Qed.
Print Assumptions C85_switched_off_refuted.

(** *** the hypotheses can be met *)
(** a sequential run, a change of the settings, a parallel run that finds the checker of the run before, and reset() followed by another run *)
Definition lf_env2 : env N N := demo_env (fun _ => false) MEquivalent MEquivalent ZEquivalent true false None.
Definition lf_seq : config := demo_cfg false false true false 0 0 true.
Example C85_example : exists used (m : manager N N), life used m /\ length used = 2 /\ r_eq (lf_res m) = Equivalent /\ lf_chk m <> [] /\
  exists m', life [(lf_env2, lf_exact)] m' /\ r_eq (lf_res m') = Equivalent.
Proof.
  pose proof (life_new lf_seq 0%N 0%Q : life (Stim := N) [] (lf_new lf_seq)) as L.
  let o := eval vm_compute in (run 9 no_par lf_env2 (mkMgr lf_seq 0%N false [] (lf_res (lf_new lf_seq)))) in
  match o with Returned ?m' =>
    let l' := eval vm_compute in (map (fun k => (Some k, false)) (m_checkers m')) in
    pose proof (life_run _ _ lf_env2 9 no_par false m' l' L (or_introl eq_refl) eq_refl (or_introl (Forall_nil _)) eq_refl) as L1 end.
  apply (life_configure _ _ lf_exact) in L1.
  par_step L1 lf_env2 (mains 3 ++ works 0 4 ++ mains 4 ++ works 1 3 ++ mains 1).
  pose proof (life_reset _ _ lf_env2 L1) as L2.
  par_step L2 lf_env2 (mains 3 ++ works 0 4 ++ mains 4 ++ works 1 3 ++ mains 1).
  eexists. eexists. split; [exact L1|]. split; [reflexivity|]. split; [reflexivity|]. split; [discriminate|].
  eexists. split; [exact L2|reflexivity].
Qed.

(** a refutation; then the circuits are refused by the alternating checker: run() throws, the refutation is gone, the two checkers are there;
    a third run, without that checker, refutes again *)
Definition lf_refuses : env N N :=
  mkEnv false true true false false true true false MEquivalent MNotEquivalent (fun _ => SEquivalent) ZEquivalent (fun g => Some (g, (g + 1)%N)) (fun _ => 0%N) None (fun _ => true).
Definition lf_con : config := demo_cfg true false false false 0 0 true.
Definition lf_alt : config := demo_cfg false false true false 0 0 true.
Ltac seq_step L e K :=
  match type of L with life ?u ?m =>
    let o := eval vm_compute in (run 9 no_par e (mkMgr (lf_cfg m) (lf_gen m) false (present (lf_chk m)) (lf_res m))) in
    match o with Returned ?m' =>
      let l' := eval vm_compute in (map (fun k => (Some k, false)) (m_checkers m')) in
      let N := fresh in assert (no_null (lf_chk m)) as N by (repeat constructor; discriminate);
      pose proof (life_run u m e 9 no_par false m' l' L (or_introl eq_refl) eq_refl (or_introl N) eq_refl) as K end end.
Example C85_throw_example : exists used (m m1 m2 : manager N N),
  life used m /\ r_eq (lf_res m) = NotEquivalent /\
  run 9 no_par lf_refuses (mkMgr lf_alt (lf_gen m) false (present (lf_chk m)) (lf_res m)) = Thrown /\
  life ((lf_refuses, lf_alt) :: used) m1 /\ r_eq (lf_res m1) = NoInformation /\ length (lf_chk m1) = 2 /\
  life ((lf_refuses, lf_con) :: (lf_refuses, lf_alt) :: used) m2 /\ r_eq (lf_res m2) = NotEquivalent /\ length (lf_chk m2) = 3.
Proof.
  pose proof (life_new lf_con 0%N 0%Q : life (Stim := N) [] (lf_new lf_con)) as L0.
  seq_step L0 lf_refuses L3.
  pose proof (life_configure _ _ lf_alt L3) as L1.
  match type of L1 with life ?u ?m =>
    let o := eval vm_compute in (run_left 9 lf_refuses (mkMgr (lf_cfg m) (lf_gen m) false (present (lf_chk m)) (lf_res m))) in
    match o with Some ?s =>
      let l' := eval vm_compute in (map (fun k => (Some k, false)) (s_chk s)) in
      pose proof (life_run_throws u m lf_refuses 9 false s l' L1 eq_refl eq_refl) as L4 end end.
  pose proof (life_configure _ _ lf_con L4) as L2.
  seq_step L2 lf_refuses L5.
  eexists. eexists. eexists. eexists. split; [exact L3|]. split; [reflexivity|]. split; [reflexivity|]. split; [exact L4|]. split; [reflexivity|]. split; [reflexivity|].
  split; [exact L5|]. split; reflexivity.
Qed.
