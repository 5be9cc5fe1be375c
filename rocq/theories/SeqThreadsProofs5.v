(** A settled question is announced: proofs. *)
From Coq Require Import String List Bool NArith QArith Arith Lia.
From Verif Require Import Criterion Config SeqFlow Trace SeqThreads SeqThreadsSpec SeqThreadsProofs.
Import ListNotations.
Local Open Scope list_scope.
Local Open Scope nat_scope.

Section Ann.
Context {Stim Gen : Type}.
Notation env := (env Stim Gen).
Notation left_over := (left_over Stim Gen).
Notation act := (prog (outcome left_over)).
Notation shared := (shared (outcome left_over)).
Variables (e : env) (c : config).
Hypothesis HT : hasTimeout c = true.

(** on every path to a settled return there is a notification after [done] was set; [s]: done is set, [n]: the notification happened *)
Fixpoint ann (Q : left_over -> Prop) (s n : bool) (p : act) : Prop :=
  match p with
  | PRead k | PRun k => forall x, ann Q s n (k x)
  | PSet p => ann Q true n p
  | PNotify p => ann Q s (n || s) p
  | PEmplace p | PClear p | PJoin p => ann Q s n p
  | PLeave (Returned l) => Q l -> n = true
  | PLeave _ => True
  end.

Lemma step_done a (w w' : shared) : sstep a w = Some w' -> w_done w = true -> w_done w' = true.
Proof.
  intros H D. unfold sstep in H. destruct (stopped w); [discriminate|]. destruct a as [cut| | |].
  - unfold smain in H. destruct (w_prog w); try (injection H as <-; cbn; auto; fail); try discriminate.
    + destruct (negb cut || _); [injection H as <-; exact D|discriminate].
    + destruct (w_tm w); try discriminate; injection H as <-; exact D.
  - unfold stimer in H. destruct (w_tm w); try discriminate; try (injection H as <-; cbn; auto; fail).
    destruct (Nat.ltb j n); injection H as <-; exact D.
  - destruct (w_tm w); try discriminate; injection H as <-; exact D.
  - destruct (w_tm w); try discriminate; injection H as <-; exact D.
Qed.
Lemma step_prog a (w w' : shared) : sstep a w = Some w' -> (forall cut, a <> SMain cut) -> w_prog w' = w_prog w.
Proof.
  intros H NM. unfold sstep in H. destruct (stopped w); [discriminate|]. destruct a as [cut| | |]; [now destruct (NM cut)| | |].
  - unfold stimer in H. destruct (w_tm w); try discriminate; try (injection H as <-; reflexivity).
    destruct (Nat.ltb j n); injection H as <-; reflexivity.
  - destruct (w_tm w); try discriminate; injection H as <-; reflexivity.
  - destruct (w_tm w); try discriminate; injection H as <-; reflexivity.
Qed.
Lemma announced_cons a acts (w w1 : shared) : sstep a w = Some w1 -> announced acts w1 -> announced (a :: acts) w.
Proof. intros H (a1 & cut & a2 & w2 & p & -> & H1 & H2). exists (a :: a1), cut, a2, w2, p. split; [reflexivity|]. cbn [srun]. now rewrite H. Qed.

Lemma ann_run Q acts : forall (w w' : shared) l s n, ann Q s n (w_prog w) -> (s = true -> w_done w = true) ->
  srun acts w = Some w' -> w_prog w' = PLeave (Returned l) -> Q l -> n = true \/ announced acts w.
Proof.
  induction acts as [|a acts IH]; intros w w' l s n HA HD HR HP HS; cbn [srun] in HR.
  - injection HR as <-. rewrite HP in HA. left. exact (HA HS).
  - destruct (sstep a w) as [w1|] eqn:E; [|discriminate].
    assert (K : forall s1 n1, ann Q s1 n1 (w_prog w1) -> (s1 = true -> w_done w1 = true) -> (n1 = true -> n = true \/ announced (a :: acts) w) ->
                n = true \/ announced (a :: acts) w).
    { intros s1 n1 HA1 HD1 HN. destruct (IH w1 w' l s1 n1 HA1 HD1 HR HP HS) as [N|N]; [exact (HN N)|]. right. exact (announced_cons _ _ _ _ E N). }
    assert (D1 : s = true -> w_done w1 = true) by (intros S; exact (step_done _ _ _ E (HD S))).
    destruct a as [cut| | |]; [|apply (K s n); [rewrite (step_prog _ _ _ E) by discriminate; exact HA|exact D1|now left]..].
    pose proof E as E0. unfold sstep in E. destruct (stopped w); [discriminate|]. unfold smain in E. destruct (w_prog w) as [k|p|p|p|p|k|p|b] eqn:PW; cbn [ann] in HA.
    + apply (K s n); [|exact D1|now left]. injection E as <-. apply HA.
    + apply (K true n); [injection E as <-; exact HA|injection E as <-; reflexivity|now left].
    + apply (K s (n || s)); [injection E as <-; exact HA|exact D1|]. intros N. apply orb_true_iff in N. destruct N as [N|N]; [now left|].
      right. exists [], cut, acts, w, p. split; [reflexivity|]. split; [reflexivity|]. split; [exact PW|exact (HD N)].
    + apply (K s n); [|exact D1|now left]. injection E as <-. apply HA.
    + apply (K s n); [|exact D1|now left]. injection E as <-. apply HA.
    + apply (K s n); [|exact D1|now left]. destruct (negb cut || _); [injection E as <-|discriminate]. apply HA.
    + apply (K s n); [|exact D1|now left]. destruct (w_tm w); try discriminate; injection E as <-; apply HA.
    + discriminate.
Qed.

Lemma set_counts_eq a b (r : results Stim) : r_eq (set_counts a b r) = r_eq r. Proof. reflexivity. Qed.
Lemma set_cex_eq i o (r : results Stim) : r_eq (set_cex i o r) = r_eq r. Proof. reflexivity. Qed.
Lemma finished_cex i o (r : results Stim) : simulationsFinished c (set_cex i o r) = simulationsFinished c r. Proof. reflexivity. Qed.
Lemma finished_eq v (r : results Stim) : simulationsFinished c (set_eq v r) = simulationsFinished c r. Proof. reflexivity. Qed.

(** what follows: settled only if announced *)
Definition fine (next : left_over -> act) : Prop := forall l s n, (settled c l -> n = true) -> ann (settled c) s n (next l).

Lemma ann_sim fuel l next s : fine next -> (r_eq (f_res l) = NoInformation \/ r_eq (f_res l) = ProbablyEquivalent) -> ann (settled c) s false (sim_part fuel e c l next).
Proof.
  intros HN HL. unfold sim_part. destruct (runSimulationChecker (exec c)) eqn:RS; cbn [negb].
  2:{ apply HN. intros [[A B]|[A _]]; [destruct HL; contradiction|]. unfold onlySimulationCheckerConfigured in A. rewrite RS in A. cbn in A. rewrite ?andb_false_r in A. discriminate. }
  destruct (ctor_throws e c KSim); [unfold leave_by_exception; destruct (hasTimeout c); exact I|]. cbn [ann].
  match goal with |- ann (settled c) s false (sim_loop _ _ _ ?q0 ?stm0 ?r0 ?g0 ?ex0 ?old0) =>
    assert (HE : forall qq ss rr gg sf, r_eq rr = NoInformation \/ r_eq rr = ProbablyEquivalent \/ r_eq rr = NotEquivalent -> ann (settled c) sf false (ex0 qq ss rr gg));
    [|assert (HR : r_eq r0 = NoInformation \/ r_eq r0 = ProbablyEquivalent) by exact HL; clear HL; generalize q0 stm0 g0; revert HR HE; generalize r0 ex0] end.
  { intros qq ss rr gg sf HR. cbv zeta. destruct (criterion_eqb (r_eq rr) NotEquivalent) eqn:EQ.
    - destruct (onlySimulationCheckerConfigured c && simulationsFinished c rr); cbn [announce ann orb]; apply HN; reflexivity.
    - assert (HQ : r_eq rr = NoInformation \/ r_eq rr = ProbablyEquivalent) by (destruct HR as [X|[X|X]]; auto; rewrite X in EQ; discriminate).
      destruct (onlySimulationCheckerConfigured c && simulationsFinished c rr) eqn:EB; cbn [announce ann orb]; apply HN; [reflexivity|].
      intros [[A B]|[A B]]; cbn [f_res] in *; [destruct HQ; contradiction|]. rewrite A, B in EB. discriminate. }
  intros r0 ex HR HE. revert s r0 HR. induction fuel as [|f IH]; intros s r HR q stm g; cbn [sim_loop]; [exact I|].
  assert (HR3 : r_eq r = NoInformation \/ r_eq r = ProbablyEquivalent \/ r_eq r = NotEquivalent) by tauto.
  destruct (simulationsFinished c r); [apply HE; exact HR3|]. unfold if_not_done. cbn [ann]. intros [|]; [apply HE; exact HR3|].
  destruct (e_gen e g) as [[x g']|]; [|exact I]. cbn [ann]. intros cut. cbv zeta.
  destruct (if cut then q else _); try (apply IH; cbn; auto; fail); try (apply HE; cbn; auto; fail).
  cbn [ann]. intros _. rewrite HT. exact I.
Qed.
Lemma ann_exact k en v th l next : fine next -> forall s n, (settled c l -> n = true) -> ann (settled c) s n (exact_part k en v th e c l next).
Proof.
  intros HN s n HL. unfold exact_part. destruct (negb en); [now apply HN|]. unfold if_not_done. cbn [ann]. intros [|]; [now apply HN|].
  destruct (ctor_throws e c k); [unfold leave_by_exception; destruct (hasTimeout c); exact I|]. cbn [ann]. intros [|]; [now apply HN|].
  destruct th; [unfold leave_by_exception; destruct (hasTimeout c); exact I|]. cbn [ann]. intros cut. cbv zeta.
  destruct (if cut then NoInformation else mcrit v); try (cbn [announce ann orb]; apply HN; intros _; apply orb_true_r). apply HN. exact HL.
Qed.
Lemma ann_end (l : left_over) s n : (settled c l -> n = true) -> ann (settled c) s n (at_end l).
Proof. exact (fun H => H). Qed.
Lemma ann_zx : fine (zx_part e c).
Proof.
  intros l s n HL. unfold zx_part. destruct (negb (runZXChecker (exec c))); [now apply ann_end|]. unfold if_not_done. cbn [ann]. intros [|]; [now apply ann_end|].
  destruct (e_transformable e).
  - destruct (negb (e_zx_perm_ok e)); [exact I|]. cbn [ann]. intros [|]; [now apply ann_end|]. cbn [ann]. intros cut. cbv zeta.
    destruct (if cut then NoInformation else _); cbn [announce ann];
      try (apply ann_end; intros _; apply orb_true_r); destruct (_ && _ && _); try exact I; apply ann_end; intros _; apply orb_true_r.
  - destruct (onlyZXCheckerConfigured c) eqn:OZ; [|now apply ann_end]. cbn [ann at_end]. intros [[A _]|[A _]]; [now destruct A|].
    exfalso. unfold onlyZXCheckerConfigured, onlySimulationCheckerConfigured in *.
    destruct (runSimulationChecker (exec c)), (runZXChecker (exec c)); cbn [negb andb] in *; rewrite ?andb_false_r in *; cbn [andb] in *; discriminate.
Qed.
Lemma ann_sequential fuel l s : r_eq (f_res l) = NoInformation \/ r_eq (f_res l) = ProbablyEquivalent -> ann (settled c) s false (sequential_prog fuel e c l).
Proof.
  intros HL. apply ann_sim; [|exact HL]. intros l1 s1 n1 H1. apply ann_exact; [|exact H1]. intros l2 s2 n2 H2. apply ann_exact; [|exact H2]. exact ann_zx.
Qed.
Lemma ann_symbolic l s : r_eq (f_res l) = NoInformation \/ r_eq (f_res l) = ProbablyEquivalent ->
  ann (fun l : left_over => r_eq (f_res l) <> NoInformation /\ r_eq (f_res l) <> ProbablyEquivalent) s false (symbolic_prog e c l).
Proof.
  intros HL. unfold symbolic_prog, if_not_done. cbn [ann]. intros [|]; [cbn; intros [A B]; destruct HL; contradiction|]. destruct (e_transformable e).
  - destruct (negb (e_zx_perm_ok e)); [exact I|]. cbn [ann]. intros [|]; [cbn; intros [A B]; destruct HL; contradiction|]. cbn [ann]. intros cut. cbv zeta.
    cbn [announce ann orb at_end]. reflexivity.
  - cbn [ann]. rewrite HT. exact I.
Qed.

Lemma settled_announced Q (p : act) n f acts l : ann Q false false p -> leaves acts (s_init true p n f) (Returned l) -> Q l -> announced acts (s_init true p n f).
Proof.
  intros HA (w' & HR & _ & HP) HS. destruct (ann_run Q acts (s_init true p n f) w' l false false HA ltac:(discriminate) HR HP HS) as [N|N]; [discriminate|exact N].
Qed.
End Ann.
