(** C75: reference counting and garbage collection in the decision-diagram checkers. *)
From Coq Require Import NArith Bool List Arith.
From Verif Require Import RefPackage RefFlow RefSpec RefFlowProofs.
Import ListNotations.

(** Whatever the circuits, the schemes' answers, the results of the package, the moments the collector runs and the moment of a cancellation:
    no checker uses a diagram that was reclaimed, releases a reference nobody holds, or reads behind the end of a circuit. This includes
    reading the two output states of a counterexample ([cexOut]) *)
Theorem C75_no_reclaimed_diagram_is_used : forall o w, unreferenced w ->
  (forall fuel partial c1 c2, safe (con_run o fuel partial c1 c2 w)) /\
  (forall look refused fuel c1 c2, safe (alt_run o look refused fuel c1 c2 w)) /\
  (forall fuel partial cexOut c1 c2 ts, safe (sim_session o fuel partial false cexOut c1 c2 ts w)).
Proof.
  intros o w h. repeat split; intros.
  - generalize (construction_exact o w fuel partial c1 c2 h). destruct (con_run o fuel partial c1 c2 w); cbn; auto.
  - generalize (alternating_exact o w look refused fuel c1 c2 h). destruct (alt_run o look refused fuel c1 c2 w); cbn; auto.
  - generalize (simulation_exact o w fuel partial false cexOut c1 c2 ts h (or_introl eq_refl)).
    destruct (sim_session o fuel partial false cexOut c1 c2 ts w); cbn; auto.
Qed.
Print Assumptions C75_no_reclaimed_diagram_is_used.

(** When a run is over, the package holds exactly one reference for every diagram the checker still keeps, and these are intact *)
Theorem C75_references_are_exact : forall o w l w', unreferenced w ->
  (exists fuel partial c1 c2, con_run o fuel partial c1 c2 w = Ok l w') \/
  (exists look refused fuel c1 c2, alt_run o look refused fuel c1 c2 w = Ok l w') \/
  (exists fuel partial cexOut c1 c2 ts, sim_session o fuel partial false cexOut c1 c2 ts w = Ok l w') ->
  references w' l /\ intact w' l.
Proof.
  intros o w l w' h [(fuel & partial & c1 & c2 & E)|[(look & refused & fuel & c1 & c2 & E)|(fuel & partial & cexOut & c1 & c2 & ts & E)]].
  - generalize (construction_exact o w fuel partial c1 c2 h). now rewrite E.
  - generalize (alternating_exact o w look refused fuel c1 c2 h). now rewrite E.
  - generalize (simulation_exact o w fuel partial false cexOut c1 c2 ts h (or_introl eq_refl)). now rewrite E.
Qed.
Print Assumptions C75_references_are_exact.

(** Any number of simulations that are not cancelled leaves no reference behind, so the checker can be used over and over *)
Theorem C75_simulations_leave_no_reference : forall o w fuel partial cexOut c1 c2 ts l w',
  unreferenced w -> never_cancelled o -> sim_session o fuel partial false cexOut c1 c2 ts w = Ok l w' -> unreferenced w'.
Proof. intros o w fuel partial cexOut c1 c2 ts l w' h nd. exact (simulation_nothing_left o w fuel partial false cexOut c1 c2 ts l w' h (or_introl eq_refl) nd). Qed.
Print Assumptions C75_simulations_leave_no_reference.

(** an environment: every computation yields a new node, every scheme answer is 1, the collector always runs *)
Definition busy : oracle := Oracle (fun k => N.of_nat (S k)) (fun _ => true) (fun _ => true) (fun _ => 1) (fun _ => false).
(** ... and one that never says "differ" *)
Definition busy_equal : oracle := Oracle (fun k => N.of_nat (S k)) (fun _ => false) (fun _ => true) (fun _ => 1) (fun _ => false).
(** ... and one where the check is cancelled late *)
Definition busy_cancelled : oracle := Oracle (fun k => N.of_nat (S k)) (fun _ => false) (fun _ => true) (fun _ => 1) (fun k => Nat.leb 20 k).

Definition ok {A} (r : res A) : bool := match r with Ok _ _ => true | _ => false end.
Example C75_example_all_finish : unreferenced new_package /\
  ok (con_run busy 9 true [false; true; false] [false; false] new_package) = true /\
  ok (alt_run busy_equal true false 9 [false; true; false] [true; false; false] new_package) = true /\
  ok (alt_run busy_equal false false 9 [false; true; false] [false; false] new_package) = true /\
  ok (sim_session busy_equal 9 false false true [false; true] [false; false] [Product; Stabilized 3 2; Product] new_package) = true /\
  ok (sim_session busy 9 false false true [false; true] [false; false] [Product; Stabilized 3 2; Product] new_package) = true.
Proof. split; [intros n _; reflexivity|]. vm_compute. repeat split. Qed.

(** Reading the input state of a counterexample is not covered: the checker keeps no reference to it while it simulates, so that the collector
    may have reclaimed it when store_counterexample_input asks for it *)
Theorem C75_counterexample_input_is_intact_refuted :
  ~ forall o w fuel partial cexOut c1 c2 ts, unreferenced w -> safe (sim_session o fuel partial true cexOut c1 c2 ts w).
Proof.
  intros h. assert (E : sim_session busy 9 false true false [false] [false] [Product] new_package = Fault Reclaimed) by (vm_compute; reflexivity).
  specialize (h busy new_package 9 false false [false] [false] [Product] ltac:(intros n _; reflexivity)). rewrite E in h. exact h.
Qed.
Print Assumptions C75_counterexample_input_is_intact_refuted.

(** it is intact when the collector did not run *)
Theorem C75_counterexample_input_without_collection : forall o w fuel partial cexOut c1 c2 ts,
  unreferenced w -> never_collects o -> safe (sim_session o fuel partial true cexOut c1 c2 ts w).
Proof.
  intros o w fuel partial cexOut c1 c2 ts h nc. generalize (simulation_exact o w fuel partial true cexOut c1 c2 ts h (or_intror nc)).
  destruct (sim_session o fuel partial true cexOut c1 c2 ts w); cbn; auto.
Qed.
Print Assumptions C75_counterexample_input_without_collection.

(** Running a simulation checker a second time without a new stimulus may start from a reclaimed state *)
Theorem C75_second_run_same_stimulus_refuted :
  ~ forall o w fuel partial c1 c2, unreferenced w -> safe (run_again o fuel partial c1 c2 w).
Proof.
  intros h. assert (E : run_again busy_equal 9 false [false] [false] new_package = Fault Reclaimed) by (vm_compute; reflexivity).
  specialize (h busy_equal new_package 9 false [false] [false] ltac:(intros n _; reflexivity)). rewrite E in h. exact h.
Qed.
Print Assumptions C75_second_run_same_stimulus_refuted.

(** A cancelled simulation does leave references behind, and so does a finished alternating run with lookahead (the cached operations) *)
Theorem C75_every_run_leaves_no_reference_refuted :
  ~ forall o w fuel partial cexOut c1 c2 ts l w', unreferenced w ->
      sim_session o fuel partial false cexOut c1 c2 ts w = Ok l w' -> unreferenced w'.
Proof.
  intros h. pose (r := sim_session busy_cancelled 9 false false false [false; false; false] [false; false; false] [Product] new_package).
  assert (X : match r with Ok l w' => cnt w' (hd 0%N l) = 1%N /\ hd 0%N l <> 0%N | _ => False end)
    by (vm_compute; split; [reflexivity|discriminate]).
  pose proof (h busy_cancelled new_package 9 false false [false; false; false] [false; false; false] [Product]) as u.
  fold r in u. destruct r as [l w'| |]; [|destruct X|destruct X]. destruct X as [X1 X2].
  specialize (u l w' (fun n _ => eq_refl) eq_refl (hd 0%N l) X2). cbn [count_occ N.of_nat] in u. rewrite X1 in u. discriminate u.
Qed.
Print Assumptions C75_every_run_leaves_no_reference_refuted.
Theorem C75_lookahead_keeps_only_the_result_refuted :
  ~ forall o w fuel c1 c2 l w', unreferenced w -> never_cancelled o ->
      alt_run o true false fuel c1 c2 w = Ok l w' -> length l = 1.
Proof.
  intros h. pose (r := alt_run busy true false 9 [false] [false; false] new_package).
  assert (X : match r with Ok l _ => length l = 2 | _ => False end) by (vm_compute; reflexivity).
  pose proof (h busy new_package 9 [false] [false; false]) as u. fold r in u.
  destruct r as [l w'| |]; [|destruct X|destruct X].
  specialize (u l w' (fun n _ => eq_refl) (fun _ => eq_refl) eq_refl). rewrite X in u. discriminate u.
Qed.
Print Assumptions C75_lookahead_keeps_only_the_result_refuted.
