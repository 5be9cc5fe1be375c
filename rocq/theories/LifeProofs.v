(** Lemmas for C85. *)
From Coq Require Import String List Bool NArith QArith Arith Lia.
From Verif Require Import Criterion Config SeqFlow SeqSpec SeqProofs SeqProofs2 SeqProofs3 SeqThrow ParFlow ParSpec ParProofs ParProofs3 ParAgain ParAgainSpec ParAgainProofs ParAgainProofs2 LifeSpec.
Import ListNotations.
Local Open Scope list_scope.
Local Open Scope nat_scope.

Section Proofs.
Context {Stim Gen : Type}.
Notation env := (env Stim Gen).
Notation mgr := (mgr Stim Gen).
Notation checker := (checker Stim).
Notation settings := (settings Stim Gen).
Implicit Types (e : env) (c : config) (g : Gen).

(** *** sequential and symbolic runs *)
Lemma drawn_drawable e g y : drawn_from e g y -> drawable e y.
Proof.
  intros (l & g' & H). remember (l ++ [y]) as l' eqn:El. revert l El. induction H as [g|g s g1 l1 g2 Hg Hd IH]; intros l El; [destruct l; discriminate|].
  destruct l as [|a l]; injection El as -> El.
  - exists g, g1. exact Hg.
  - eapply IH. exact El.
Qed.
Definition okc e c (ck : checker) : Prop := (uses (e, c) (k_kind ck) /\ (k_eq ck = NoInformation \/ computes e (drawable e) (k_kind ck) (k_eq ck))) /\
  (forall y, k_stim ck = Some y -> drawable e y).
Definition all_new e c (old l : list checker) : Prop := forall ck, In ck l -> In ck old \/ okc e c ck.

Lemma loop_q fuel : forall e c t q s r g, ((q = NoInformation \/ computes e (drawable e) KSim q) /\ (forall y, s = Some y -> drawable e y)) ->
  match simLoop fuel e c t q s r g with
  | LDone _ q' s' _ _ | LNoInfo q' s' _ _ => (q' = NoInformation \/ computes e (drawable e) KSim q') /\ (forall y, s' = Some y -> drawable e y)
  | LDiverged => True end.
Proof.
  induction fuel as [|fuel IH]; intros e c t q s r g Hq; cbn [simLoop]; [trivial|].
  destruct (simulationsFinished c r); [exact Hq|]. destruct (fired e c t); [exact Hq|].
  destruct (e_gen e g) as [[st g1]|] eqn:Eg; [|trivial].
  assert (DS : drawable e st) by (exists g, g1; exact Eg).
  assert (HQ : forall q', (if interrupted e c (S t) then q else scrit (e_sim e st)) = q' -> (q' = NoInformation \/ computes e (drawable e) KSim q') /\ (forall y, Some st = Some y -> drawable e y)).
  { intros q' <-. split; [|intros y E; injection E as <-; exact DS]. destruct (interrupted e c (S t)); [exact (proj1 Hq)|]. right. cbn. eauto. }
  destruct (if interrupted e c (S t) then q else scrit (e_sim e st)) eqn:Eq; try (apply HQ; reflexivity); apply IH; apply HQ; reflexivity.
Qed.
Lemma add_new e c old l ck : all_new e c old l -> okc e c ck -> all_new e c old (l ++ [ck]).
Proof. intros A B x Hx. apply in_app_or in Hx. destruct Hx as [Hx|[<-|[]]]; auto. Qed.

Definition good_out e c old (x : outcome (st (Stim := Stim) (Gen := Gen)) + outcome (st (Stim := Stim) (Gen := Gen))) : Prop :=
  match x with inl (Returned s) | inr (Returned s) => all_new e c old (s_chk s) | _ => True end.
Lemma seqSim_new fuel e c old s : all_new e c old (s_chk s) -> good_out e c old (seqSim fuel e c s).
Proof.
  intros A. unfold seqSim. destruct (runSimulationChecker (exec c)) eqn:E; cbn [negb]; [|exact A].
  destruct (ctor_throws e c KSim); [unfold leave_by_exception; destruct (hasTimeout c); exact I|].
  pose proof (loop_q fuel e c (s_t s) NoInformation None (s_res s) (s_gen s) (conj (or_introl eq_refl) (fun y (E : None = Some y) => match E with end))) as L.
  destruct (simLoop fuel e c (s_t s) NoInformation None (s_res s) (s_gen s)) as [t q stm r g|q stm r g|]; [| |exact I]; destruct L as [L1 L2].
  - cbn. apply add_new; [exact A|]. split; [split; assumption|assumption].
  - destruct (hasTimeout c); cbn; [exact I|]. apply add_new; [exact A|]. split; [split; assumption|assumption].
Qed.
Lemma seqExact_new k en v th e c old s : (en = true -> uses (e, c) k) -> (th = false -> computes e (drawable e) k (mcrit v)) ->
  all_new e c old (s_chk s) -> good_out e c old (seqExact k en v th e c s).
Proof.
  intros U V A. unfold seqExact. destruct en; cbn [negb]; [|exact A]. destruct (reads_done e c s); [exact A|].
  destruct (ctor_throws e c k); [unfold leave_by_exception; destruct (hasTimeout c); exact I|].
  destruct (reads_done e c (tick s)). { cbn. apply add_new; [exact A|]. split; [split; [now apply U|now left]|discriminate]. }
  destruct th; [unfold leave_by_exception; destruct (hasTimeout c); exact I|].
  assert (O : forall q, (q = NoInformation \/ q = mcrit v) -> okc e c (mkChecker k q None)).
  { intros q [-> | ->]; (split; [split; [now apply U|]|discriminate]); cbn; auto. }
  assert (N : forall q, (q = NoInformation \/ q = mcrit v) -> all_new e c old (s_chk s ++ [mkChecker k q None])) by (intros q Hq; apply add_new; auto).
  destruct (interrupted e c (s_t (tick (tick s)))).
  - cbn. apply N. now left.
  - destruct v; cbn [mcrit good_out set_done with_res tick add_checker s_chk] in *; apply N; now right.
Qed.
Lemma seqZX_new e c old s : all_new e c old (s_chk s) -> good_out e c old (seqZX e c s).
Proof.
  intros A. unfold seqZX. destruct (runZXChecker (exec c)) eqn:E; cbn [negb]; [|exact A]. destruct (reads_done e c s); [exact A|].
  destruct (e_transformable e) eqn:T.
  2:{ destruct (onlyZXCheckerConfigured c); [|exact A]. intros ck []. }
  destruct (negb (e_zx_perm_ok e)); [exact I|].
  assert (U : uses (e, c) KZX) by (split; cbn; auto).
  destruct (reads_done e c (tick s)). { cbn. apply add_new; [exact A|]. split; [split; [exact U|now left]|discriminate]. }
  assert (N : forall q, (q = NoInformation \/ q = zcrit (e_ancilla e) (e_zx e)) -> all_new e c old (s_chk s ++ [mkChecker KZX q None])).
  { intros q Hq. apply add_new; [exact A|]. split; [split; [exact U|]; cbn; intuition|discriminate]. }
  destruct (interrupted e c (s_t (tick (tick s)))).
  - destruct (_ && _ && _); cbn; [exact I|]. apply N. now left.
  - destruct (zcrit (e_ancilla e) (e_zx e)) eqn:Z; cbn [good_out];
      repeat match goal with |- context [if ?b then _ else _] => destruct b end; cbn [good_out]; try exact I; cbn [set_done with_res tick add_checker s_chk]; apply N; now right.
Qed.
Lemma bind_good e c old x f : good_out e c old x -> (forall s, all_new e c old (s_chk s) -> good_out e c old (f s)) -> good_out e c old (bind x f).
Proof. intros A B. destruct x as [[s| | | |]|o]; cbn in *; auto. Qed.
Lemma finish_good e c old x m' : good_out e c old x -> finish_flow c x = Returned m' -> all_new e c old (m_checkers m').
Proof. intros A H. destruct x as [[s| | | |]|[s| | | |]]; cbn in *; try discriminate; injection H as <-; exact A. Qed.

Lemma run_new fuel pf e (m m' : mgr) : choose_flow e (m_cfg m) <> FParallel -> run fuel pf e m = Returned m' ->
  all_new e (m_cfg m) (m_checkers m) (m_checkers m').
Proof.
  intros NF H. assert (A0 : all_new e (m_cfg m) (m_checkers m) (m_checkers m)) by (intros ck; auto).
  unfold run in H. destruct (choose_flow e (m_cfg m)) eqn:F.
  - injection H as <-. exact A0.
  - injection H as <-. exact A0.
  - unfold checkSequential in H. cbn [start_run m_cfg m_done m_checkers m_res m_gen] in H. eapply finish_good; [|exact H].
    apply bind_good; [now apply seqSim_new|]. intros s1 A1. apply bind_good.
    + apply seqExact_new; [intros E; exact E| |exact A1]. intros E. cbn. apply negb_false_iff in E. auto.
    + intros s2 A2. apply bind_good; [apply seqExact_new; [intros E; exact E|reflexivity|exact A2]|]. intros s3 A3. now apply seqZX_new.
  - congruence.
  - assert (VF : e_varfree e = false).
    { unfold choose_flow in F. destruct (negb (anythingToExecute (m_cfg m))); [discriminate|]. destruct (e_empty e); [discriminate|].
      destruct (e_varfree e); [|reflexivity]. destruct (_ || _); discriminate. }
    unfold checkSymbolic in H. cbn [start_run m_cfg m_done m_checkers m_res m_gen] in H. eapply finish_good; [|exact H]. clear H.
    set (s := mkSt 0 false (m_checkers m) (set_eq NoInformation (m_res m)) (m_gen m)). change (all_new e (m_cfg m) (m_checkers m) (s_chk s)) in A0.
    destruct (reads_done e (m_cfg m) s); [exact A0|]. cbn zeta.
    destruct (e_transformable e) eqn:T.
    2:{ destruct (hasTimeout (m_cfg m)); cbn; [exact I|]. intros ck []. }
    destruct (negb (e_zx_perm_ok e)); [exact I|].
    assert (U : uses (e, m_cfg m) KZX) by (split; cbn; auto).
    destruct (reads_done e (m_cfg m) (tick s)); [cbn; apply add_new; [exact A0|split; [split; [exact U|now left]|discriminate]]|].
    change (all_new e (m_cfg m) (m_checkers m) (s_chk s ++ [mkChecker KZX (if interrupted e (m_cfg m) (s_t (tick (tick s))) then NoInformation else zcrit (e_ancilla e) (e_zx e)) None])).
    apply add_new; [exact A0|]. split; [|discriminate]. split; [exact U|]. destruct (interrupted e (m_cfg m) (s_t (tick (tick s)))); [now left|now right].
Qed.

(** the verdict of a run that is not parallel *)
Lemma run_verdict fuel pf e (m m' : mgr) : choose_flow e (m_cfg m) <> FParallel -> run fuel pf e m = Returned m' -> definitive (r_eq (m_res m')) ->
  (e_empty e = true /\ r_eq (m_res m') = Equivalent) \/ exists k, uses (e, m_cfg m) k /\ (computes e (drawable e) k (r_eq (m_res m')) /\ (k = KSim -> r_eq (m_res m') = NotEquivalent)).
Proof.
  intros NF H HD. destruct (choose_flow e (m_cfg m)) eqn:F.
  - unfold run in H. rewrite F in H. injection H as <-. cbn in HD. unfold definitive in HD. intuition discriminate.
  - unfold run in H. rewrite F in H. injection H as <-. left. split; [|reflexivity].
    unfold choose_flow in F. destruct (negb (anythingToExecute (m_cfg m))); [discriminate|]. destruct (e_empty e); [reflexivity|].
    destruct (e_varfree e); [|discriminate]. destruct (_ || _); discriminate.
  - right. destruct (c01_source fuel pf e m m' F H) as (A & B & C). 
    assert (X : from_exact_checker e (m_cfg m) (r_eq (m_res m')) -> exists k, uses (e, m_cfg m) k /\ computes e (drawable e) k (r_eq (m_res m')) /\ (k = KSim -> r_eq (m_res m') = NotEquivalent)).
    { intros [(E1 & E2 & E3)|(E1 & E3)]; rewrite <- E3; [exists KAlt|exists KCon]; cbn; repeat split; auto; discriminate. }
    assert (Z : from_zx_checker e (m_cfg m) (r_eq (m_res m')) -> exists k, uses (e, m_cfg m) k /\ computes e (drawable e) k (r_eq (m_res m')) /\ (k = KSim -> r_eq (m_res m') = NotEquivalent)).
    { intros (E1 & E2 & E3). rewrite <- E3. exists KZX; cbn; repeat split; auto; discriminate. }
    destruct HD as [D|[D|[D|D]]].
    + destruct A as [A|A]; auto.
    + destruct A as [A|A]; auto.
    + destruct (C D).
    + destruct (B D) as [B'|(E1 & y & Dy & Ey)]; [auto|]. exists KSim. rewrite D. cbn. repeat split; auto. exists y. rewrite Ey. split; [now apply drawn_drawable with (g := m_gen m)|reflexivity].
  - congruence.
  - right. exists KZX.
    assert (VF : e_varfree e = false).
    { unfold choose_flow in F. destruct (negb (anythingToExecute (m_cfg m))); [discriminate|]. destruct (e_empty e); [discriminate|].
      destruct (e_varfree e); [|reflexivity]. destruct (_ || _); discriminate. }
    unfold run in H. rewrite F in H. unfold checkSymbolic in H. cbn [start_run m_cfg m_done m_checkers m_res m_gen] in H.
    set (s := mkSt 0 false (m_checkers m) (set_eq NoInformation (m_res m)) (m_gen m)) in H.
    assert (ND : ~ definitive NoInformation) by (unfold definitive; intuition discriminate).
    destruct (reads_done e (m_cfg m) s); [injection H as <-; destruct (ND HD)|]. cbn zeta in H.
    destruct (e_transformable e) eqn:T.
    2:{ destruct (hasTimeout (m_cfg m)); cbn in H; [discriminate|]. injection H as <-. destruct (ND HD). }
    destruct (negb (e_zx_perm_ok e)); [discriminate|].
    destruct (reads_done e (m_cfg m) (tick s)); [injection H as <-; destruct (ND HD)|].
    cbn in H. injection H as <-. cbn [m_res set_eq r_eq] in *. change (S (S (s_t s))) with 2 in *. destruct (interrupted e (m_cfg m) 2); [destruct (ND HD)|].
    split; [split; cbn; auto|]. split; [reflexivity|discriminate].
Qed.

(** *** a sequential run that throws *)
Definition undecided (s : st (Stim := Stim) (Gen := Gen)) : Prop := s_done s = true \/ ~ definitive (r_eq (s_res s)).
Definition undecided_out (x : outcome (st (Stim := Stim) (Gen := Gen)) + outcome (st (Stim := Stim) (Gen := Gen))) : Prop :=
  match x with inl (Returned s) => undecided s | _ => True end.
Lemma loop_undecided fuel : forall e c t q s r g, r_eq r = NotEquivalent \/ ~ definitive (r_eq r) ->
  match simLoop fuel e c t q s r g with
  | LDone _ _ _ r' _ | LNoInfo _ _ r' _ => r_eq r' = NotEquivalent \/ ~ definitive (r_eq r')
  | LDiverged => True end.
Proof.
  induction fuel as [|fuel IH]; intros e c t q s r g Hr; cbn [simLoop]; [trivial|].
  destruct (simulationsFinished c r); [exact Hr|]. destruct (fired e c t); [exact Hr|].
  destruct (e_gen e g) as [[st g1]|]; [|trivial].
  assert (PE : ~ definitive ProbablyEquivalent) by (unfold definitive; intuition discriminate).
  destruct (if interrupted e c (S t) then q else scrit (e_sim e st)) eqn:Eq; try (cbn; tauto); apply IH; cbn; now right.
Qed.
Lemma seqSim_undecided fuel e c s : ~ definitive (r_eq (s_res s)) -> undecided_out (seqSim fuel e c s).
Proof.
  intros A. unfold seqSim. destruct (negb (runSimulationChecker (exec c))); [now right|].
  destruct (ctor_throws e c KSim); [unfold leave_by_exception; destruct (hasTimeout c); exact I|].
  pose proof (loop_undecided fuel e c (s_t s) NoInformation None (s_res s) (s_gen s) (or_intror A)) as L.
  destruct (simLoop fuel e c (s_t s) NoInformation None (s_res s) (s_gen s)) as [t q stm r g|q stm r g|]; [|exact I|exact I].
  cbn. unfold undecided. cbn. destruct L as [L|L].
  - rewrite L. left. cbn. now rewrite orb_true_r.
  - right. destruct (r_eq r) eqn:E; try (cbn; rewrite E; exact L); exact L.
Qed.
Lemma seqExact_undecided k en v th e c s : undecided s -> undecided_out (seqExact k en v th e c s).
Proof.
  intros A. unfold seqExact. destruct (negb en); [exact A|]. destruct (reads_done e c s); [exact A|].
  destruct (ctor_throws e c k); [unfold leave_by_exception; destruct (hasTimeout c); exact I|].
  destruct (reads_done e c (tick s)); [exact A|].
  destruct th; [unfold leave_by_exception; destruct (hasTimeout c); exact I|].
  destruct (interrupted e c (s_t (tick (tick s)))); [exact A|]. destruct v; now left.
Qed.
Lemma throws_new k en v th e c old s : (en = true -> uses (e, c) k) -> undecided s -> all_new e c old (s_chk s) ->
  seqExact k en v th e c s = inr Thrown -> all_new e c old (s_chk (exact_left k e c s)) /\ ~ definitive (r_eq (s_res (exact_left k e c s))).
Proof.
  intros U A B H. unfold seqExact in H. destruct en; cbn [negb] in H; [|discriminate]. destruct (reads_done e c s) eqn:D; [discriminate|].
  assert (ND : ~ definitive (r_eq (s_res s))).
  { destruct A as [A|A]; [|exact A]. unfold reads_done in D. rewrite A in D. discriminate. }
  unfold exact_left. destruct (ctor_throws e c k); [split; [exact B|exact ND]|].
  split; [|exact ND]. cbn. apply add_new; [exact B|]. split; [split; [now apply U|now left]|discriminate].
Qed.
Lemma left_facts fuel e (m : mgr) s : run_left fuel e m = Some s ->
  all_new e (m_cfg m) (m_checkers m) (s_chk s) /\ ~ definitive (r_eq (s_res s)).
Proof.
  unfold run_left. destruct (choose_flow e (m_cfg m)); try discriminate. unfold sequential_left. cbn [start_run m_cfg m_done m_checkers m_res m_gen]. intros H.
  set (c := m_cfg m) in *. set (s0 := mkSt 0 false (m_checkers m) (set_eq NoInformation (m_res m)) (m_gen m)) in *.
  assert (A0 : all_new e c (m_checkers m) (s_chk s0)) by (intros ck; auto).
  assert (D0 : ~ definitive (r_eq (s_res s0))) by (unfold definitive; cbn; intuition discriminate).
  pose proof (seqSim_new fuel e c (m_checkers m) s0 A0) as A1. pose proof (seqSim_undecided fuel e c s0 D0) as D1.
  destruct (seqSim fuel e c s0) as [[s1| | | |]|[s1| | | |]]; try discriminate; [|injection H as <-; auto].
  cbn in A1, D1.
  pose proof (seqExact_new KAlt (runAlternatingChecker (exec c)) (e_alt e) (negb (e_canHandle e)) e c (m_checkers m) s1 (fun E => E)) as A2.
  pose proof (seqExact_undecided KAlt (runAlternatingChecker (exec c)) (e_alt e) (negb (e_canHandle e)) e c s1 D1) as D2.
  pose proof (throws_new KAlt (runAlternatingChecker (exec c)) (e_alt e) (negb (e_canHandle e)) e c (m_checkers m) s1 (fun E => E) D1 A1) as T2.
  destruct (seqExact KAlt (runAlternatingChecker (exec c)) (e_alt e) (negb (e_canHandle e)) e c s1) as [[s2| | | |]|[s2| | | |]]; try discriminate.
  2:{ injection H as <-. now apply T2. }
  assert (A2' : all_new e c (m_checkers m) (s_chk s2)).
  { apply A2; [|exact A1]. intros E. cbn. apply negb_false_iff in E. auto. }
  pose proof (throws_new KCon (runConstructionChecker (exec c)) (e_con e) false e c (m_checkers m) s2 (fun E => E) D2 A2') as T3.
  destruct (seqExact KCon (runConstructionChecker (exec c)) (e_con e) false e c s2) as [[s3| | | |]|[s3| | | |]]; try discriminate.
  injection H as <-. now apply T3.
Qed.
(** the checkers from before stay where they are *)
Definition keeps (l : list checker) (x : outcome (st (Stim := Stim) (Gen := Gen)) + outcome (st (Stim := Stim) (Gen := Gen))) : Prop :=
  match x with inl (Returned s) => exists new, s_chk s = l ++ new | _ => True end.
Lemma seqSim_keeps fuel e c s : keeps (s_chk s) (seqSim fuel e c s).
Proof.
  unfold seqSim. destruct (negb _); [exists []; now rewrite app_nil_r|]. destruct (ctor_throws e c KSim); [unfold leave_by_exception; destruct (hasTimeout c); exact I|].
  destruct (simLoop _ _ _ _ _ _ _ _); [|exact I|exact I]. cbn. eauto.
Qed.
Lemma seqExact_keeps k en v th e c s : keeps (s_chk s) (seqExact k en v th e c s).
Proof.
  assert (N : exists new, s_chk s = s_chk s ++ new) by (exists []; now rewrite app_nil_r).
  unfold seqExact. destruct (negb en); [exact N|]. destruct (reads_done e c s); [exact N|].
  destruct (ctor_throws e c k); [unfold leave_by_exception; destruct (hasTimeout c); exact I|].
  destruct (reads_done e c (tick s)); [cbn; eauto|]. destruct th; [unfold leave_by_exception; destruct (hasTimeout c); exact I|].
  cbv zeta. destruct (if interrupted e c (s_t (tick (tick s))) then NoInformation else mcrit v); cbn; eauto.
Qed.
Lemma exact_left_keeps k e c s : exists new, s_chk (exact_left k e c s) = s_chk s ++ new.
Proof. unfold exact_left. destruct (ctor_throws e c k); cbn; [exists []; now rewrite app_nil_r|eauto]. Qed.
Lemma left_keeps fuel e (m : mgr) s : run_left fuel e m = Some s -> exists new, s_chk s = m_checkers m ++ new.
Proof.
  unfold run_left. destruct (choose_flow e (m_cfg m)); try discriminate. unfold sequential_left. cbn [start_run m_cfg m_done m_checkers m_res m_gen]. intros H.
  set (c := m_cfg m) in *. set (s0 := mkSt 0 false (m_checkers m) (set_eq NoInformation (m_res m)) (m_gen m)) in *.
  pose proof (seqSim_keeps fuel e c s0) as K1. change (s_chk s0) with (m_checkers m) in K1.
  destruct (seqSim fuel e c s0) as [[s1| | | |]|[s1| | | |]]; try discriminate; [|injection H as <-; exists []; now rewrite app_nil_r].
  destruct K1 as [n1 K1].
  pose proof (seqExact_keeps KAlt (runAlternatingChecker (exec c)) (e_alt e) (negb (e_canHandle e)) e c s1) as K2.
  destruct (seqExact KAlt (runAlternatingChecker (exec c)) (e_alt e) (negb (e_canHandle e)) e c s1) as [[s2| | | |]|[s2| | | |]]; try discriminate.
  2:{ injection H as <-. destruct (exact_left_keeps KAlt e c s1) as [n K]. exists (n1 ++ n). now rewrite K, K1, app_assoc. }
  destruct K2 as [n2 K2].
  destruct (seqExact KCon (runConstructionChecker (exec c)) (e_con e) false e c s2) as [[s3| | | |]|[s3| | | |]]; try discriminate.
  injection H as <-. destruct (exact_left_keeps KCon e c s2) as [n K]. exists (n1 ++ n2 ++ n). now rewrite K, K2, K1, !app_assoc.
Qed.
(** the model of what is left covers exactly the runs that throw *)
Lemma zx_never_throws e c s x : seqZX e c s = x -> x <> inl Thrown /\ x <> inr Thrown.
Proof.
  intros <-. unfold seqZX. repeat match goal with |- context [if ?b then _ else _] => destruct b end; try (split; discriminate).
  all: cbv zeta; destruct (zcrit (e_ancilla e) (e_zx e)); repeat match goal with |- context [if ?b then _ else _] => destruct b end; split; discriminate.
Qed.
Lemma exact_not_inl k en v th e c s : match seqExact k en v th e c s with inl (Returned _) | inr _ => True | _ => False end.
Proof.
  unfold seqExact. repeat match goal with |- context [if ?b then _ else _] => destruct b end; try exact I; cbv zeta; try exact I.
  all: destruct (mcrit v); exact I.
Qed.
Lemma sim_not_inl fuel e c s : match seqSim fuel e c s with inl (Returned _) | inr _ => True | _ => False end.
Proof. unfold seqSim. repeat match goal with |- context [if ?b then _ else _] => destruct b end; try exact I; destruct (simLoop _ _ _ _ _ _ _ _); exact I. Qed.
Lemma left_iff fuel pf e (m : mgr) : choose_flow e (m_cfg m) <> FParallel -> (run fuel pf e m = Thrown <-> exists s, run_left fuel e m = Some s).
Proof.
  intros NF. unfold run, run_left. destruct (choose_flow e (m_cfg m)); try congruence; try (split; [discriminate|intros [? ?]; discriminate]).
  2:{ unfold checkSymbolic. cbv zeta. split; [|intros [? ?]; discriminate]. intros H. exfalso. revert H.
      repeat match goal with |- context [if ?b then _ else _] => destruct b end; cbn; discriminate. }
  unfold checkSequential, sequential_left. cbn [start_run m_cfg m_done m_checkers m_res m_gen].
  set (c := m_cfg m). set (s0 := mkSt 0 false (m_checkers m) (set_eq NoInformation (m_res m)) (m_gen m)).
  pose proof (sim_not_inl fuel e c s0) as N1.
  destruct (seqSim fuel e c s0) as [[s1| | | |]|[s1| | | |]]; try destruct N1; cbn [bind finish_flow]; try (split; [discriminate|intros [? ?]; discriminate]);
    [|split; [eauto|reflexivity]].
  pose proof (exact_not_inl KAlt (runAlternatingChecker (exec c)) (e_alt e) (negb (e_canHandle e)) e c s1) as N2.
  destruct (seqExact KAlt (runAlternatingChecker (exec c)) (e_alt e) (negb (e_canHandle e)) e c s1) as [[s2| | | |]|[s2| | | |]]; try destruct N2; cbn [bind finish_flow];
    try (split; [discriminate|intros [? ?]; discriminate]); [|split; [eauto|reflexivity]].
  pose proof (exact_not_inl KCon (runConstructionChecker (exec c)) (e_con e) false e c s2) as N3.
  destruct (seqExact KCon (runConstructionChecker (exec c)) (e_con e) false e c s2) as [[s3| | | |]|[s3| | | |]]; try destruct N3; cbn [bind finish_flow];
    try (split; [discriminate|intros [? ?]; discriminate]); [|split; [eauto|reflexivity]].
  destruct (zx_never_throws e c s3 _ eq_refl) as [Z1 Z2].
  destruct (seqZX e c s3) as [[s4| | | |]|[s4| | | |]]; cbn; try congruence; (split; [discriminate|intros [? ?]; discriminate]).
Qed.

(** *** a parallel run that throws *)
Definition EarlyWeak (s : pst Stim Gen) : Prop := early (p_main s) = true -> weak (r_eq (p_res s)).
Lemma handle_weak c (r : results Stim) k q st : weak (r_eq r) ->
  match handle c r k q st with Stop _ => True | Continue r' | Restart r' => weak (r_eq r') end.
Proof.
  intros W. assert (PE : weak ProbablyEquivalent) by (unfold weak; auto). assert (PN : weak ProbablyNotEquivalent) by (unfold weak; auto).
  unfold handle. destruct q; destruct k; try exact I; cbv zeta.
  all: repeat match goal with |- context [if ?b then _ else _] => destruct b end; try exact I; cbn; auto.
Qed.
Lemma early_weak_step e a (s s' : pst Stim Gen) : EarlyWeak s -> astep e a s = Some s' -> EarlyWeak s'.
Proof.
  intros A H. unfold EarlyWeak in *.
  assert (W : forall i, again_worker e i s = Some s' \/ abort_step i s = Some s' -> early (p_main s') = true -> weak (r_eq (p_res s'))).
  { intros i HH. destruct (again_moves _ _ _ _ HH) as (EL & x & Hx & [->|[(-> & _)|(x' & M & E & _ & _ & E3 & _ & E5 & _)]]).
    - discriminate.
    - discriminate.
    - rewrite E3, E5. exact A. }
  destruct a as [| |i|i]; cbn in H; [| |eapply W; eauto|eapply W; eauto].
  - unfold main_step in H. destruct (p_main s) as [[|k ks]| | j | | | | | | |] eqn:EM; try discriminate.
    + injection H as <-. exact A.
    + destruct (nth_error (p_slots s) (p_next s)); injection H as <-; [|discriminate]. intros _. cbn. destruct k; cbn; now apply A.
    + specialize (A eq_refl). destruct (p_queue s) as [|i q]; [discriminate|].
      destruct (nth_error (p_slots s) i) as [x|]; [|injection H as <-; discriminate].
      destruct (negb (is_idle x)); [discriminate|]. destruct (sl_exn x); [injection H as <-; intros _; exact A|].
      destruct (sl_chk x) as [ck|]; [|injection H as <-; discriminate].
      pose proof (handle_weak (p_cfg s) (p_res s) (k_kind ck) (k_eq ck) (k_stim ck) A) as HW.
      destruct (handle (p_cfg s) (p_res s) (k_kind ck) (k_eq ck) (k_stim ck)); injection H as <-; cbn; [discriminate|auto|auto].
    + destruct (nth_error (p_slots s) j); injection H as <-; discriminate.
    + destruct (forallb is_idle (p_slots s)); [|discriminate]. injection H as <-. cbn. destruct (forallb has_chk (p_slots s)); discriminate.
    + destruct (forallb is_idle (p_slots s)); [|discriminate]. injection H as <-. cbn. intros _. now apply A.
  - unfold timeout_step in H. destruct (p_main s); try discriminate. destruct (p_queue s); try discriminate.
    destruct (hasTimeout (p_cfg s)); [|discriminate]. injection H as <-. discriminate.
Qed.
Theorem thrown_no_verdict e c l r g s : reached_again e c l r g s -> p_main s = MThrown -> ~ definitive (r_eq (p_res s)).
Proof.
  intros [acts H] HM.
  assert (W : EarlyWeak s).
  { refine (arun_inv EarlyWeak e acts _ _ _ _ H).
    - intros a t t'. apply early_weak_step.
    - intros _. cbn. unfold weak. auto. }
  unfold EarlyWeak in W. rewrite HM in W. destruct (W eq_refl) as [E|[E|E]]; rewrite E; unfold definitive; intuition discriminate.
Qed.

(** *** the whole life *)
Definition known (used : list settings) (k : kind) : Prop := exists x, In x used /\ uses x k.
Definition found (used : list settings) (k : kind) (q : criterion) : Prop := q = NoInformation \/ exists x, In x used /\ computes (fst x) (drawable_in used) k q.
Lemma known_cons x (used : list settings) k : known used k -> known (x :: used) k.
Proof. intros (y & H & U). exists y. split; [now right|assumption]. Qed.
Lemma drawable_cons x (used : list settings) y : drawable_in used y -> drawable_in (x :: used) y.
Proof. intros (z & H & U). exists z. split; [now right|assumption]. Qed.
Lemma computes_mono e (D D' : Stim -> Prop) k q : (forall y, D y -> D' y) -> computes e D k q -> computes e D' k q.
Proof. intros M. destruct k; cbn; auto. intros (y & A & B). eauto. Qed.
Lemma found_cons x (used : list settings) k q : found used k q -> found (x :: used) k q.
Proof. intros [H|(y & H & U)]; [now left|right]. exists y. split; [now right|]. exact (computes_mono _ _ _ _ _ (drawable_cons x used) U). Qed.
Lemma finds_here (x : settings) (used : list settings) k q : computes (fst x) (drawable (fst x)) k q -> computes (fst x) (drawable_in (x :: used)) k q.
Proof. apply computes_mono. intros y H. exists x. split; [now left|exact H]. Qed.
Definition fine (used : list settings) (ck : checker) : Prop :=
  (known used (k_kind ck) /\ found used (k_kind ck) (k_eq ck)) /\ (forall y, k_stim ck = Some y -> drawable_in used y).
Lemma fine_cons x (used : list settings) ck : fine used ck -> fine (x :: used) ck.
Proof. intros [[A B] E]. split; [split; [now apply known_cons|now apply found_cons]|]. intros y Hy. apply drawable_cons. auto. Qed.
Lemma fine_new e c (used : list settings) ck : okc e c ck -> fine ((e, c) :: used) ck.
Proof.
  intros [[U V] S]. split; [split|].
  - exists (e, c). split; [now left|exact U].
  - destruct V as [V|V]; [now left|right]. exists (e, c). split; [now left|]. now apply finds_here.
  - intros y Hy. exists (e, c). split; [now left|]. now apply S.
Qed.

Definition LifeInv (used : list settings) (m : manager Stim Gen) : Prop :=
  (forall ck b, In (Some ck, b) (lf_chk m) -> fine used ck) /\
  (definitive (r_eq (lf_res m)) ->
     (exists x, In x used /\ e_empty (fst x) = true /\ r_eq (lf_res m) = Equivalent) \/
     (exists k, known used k /\ exists x, In x used /\ finds used x k (r_eq (lf_res m)))).

Lemma in_present (l : list (left_over Stim)) ck : In ck (present l) -> exists b, In (Some ck, b) l.
Proof.
  intros H. apply in_flat_map in H. destruct H as ([o b] & Hin & Hk). destruct o as [k|]; cbn in Hk; [|destruct Hk]. destruct Hk as [Hk|[]]. subst k. now exists b.
Qed.

Theorem life_inv used m : life used m -> LifeInv used m.
Proof.
  assert (ND : ~ definitive NoInformation) by (unfold definitive; intuition discriminate).
  induction 1 as [c g pp|used m c L [I1 I2]|used m e L _|used m e L [I1 I2] F|used m e L [I1 I2] F|used m e fuel pf d m' l' L [I1 I2] F H HN HL
    |used m e fuel d s l' L [I1 I2] H HL|used m e s L [I1 I2] F [acts H] HE].
  - split; [intros ? ? []|intros HD; destruct (ND HD)].
  - split; assumption.
  - split; [intros ? ? []|intros HD; destruct (ND HD)].
  - split; [|intros HD; destruct (ND HD)]. intros ck b Hin. apply fine_cons. exact (I1 _ _ Hin).
  - split; [intros ck b Hin; apply fine_cons; exact (I1 _ _ Hin)|].
    intros _. left. exists (e, lf_cfg m). split; [now left|]. split; [|reflexivity].
    unfold choose_flow in F. destruct (negb (anythingToExecute (lf_cfg m))); [discriminate|]. cbn. destruct (e_empty e); [reflexivity|].
    destruct (e_varfree e); [|discriminate]. destruct (_ || _); discriminate.
  - assert (F' : choose_flow e (lf_cfg m) <> FParallel) by (destruct F; congruence). split.
    + cbn [lf_chk]. intros ck b Hin. apply (in_map fst) in Hin. rewrite HL in Hin. cbn in Hin. apply in_map_iff in Hin. destruct Hin as (ck' & E & Hin). injection E as ->.
      pose proof (run_new fuel pf e (mkMgr (lf_cfg m) (lf_gen m) d (present (lf_chk m)) (lf_res m)) m' F' H ck Hin) as HO. destruct HO as [HO|HO].
      * cbn [m_checkers] in HO. destruct (in_present _ _ HO) as [b' HO']. apply fine_cons. exact (I1 _ _ HO').
      * exact (fine_new _ _ _ _ HO).
    + cbn [lf_res]. intros HD. pose proof (run_verdict fuel pf e (mkMgr (lf_cfg m) (lf_gen m) d (present (lf_chk m)) (lf_res m)) m' F' H HD) as HO. destruct HO as [[E1 E2]|(k & U & V)].
      * left. exists (e, lf_cfg m). split; [now left|auto].
      * right. cbn [m_cfg] in *. exists k. split; [exists (e, lf_cfg m); split; [now left|assumption]|]. exists (e, lf_cfg m). split; [now left|].
        destruct V as [V1 V2]. split; [|exact V2]. now apply finds_here.
  - pose proof (left_facts fuel e (mkMgr (lf_cfg m) (lf_gen m) d (present (lf_chk m)) (lf_res m)) s H) as [A B]. cbn [m_cfg m_checkers] in A. split.
    + cbn [lf_chk]. intros ck b Hin. apply (in_map fst) in Hin. rewrite HL in Hin. cbn in Hin. apply in_app_or in Hin.
      assert (O : forall b', In (Some ck, b') (lf_chk m) -> fine ((e, lf_cfg m) :: used) ck) by (intros b' HO'; apply fine_cons; exact (I1 _ _ HO')).
      destruct Hin as [Hin|Hin].
      * apply in_map_iff in Hin. destruct Hin as ([o b'] & E & Hin). cbn in E. subst o. eapply O; eauto.
      * apply in_map_iff in Hin. destruct Hin as (ck' & E & Hin). injection E as ->.
        assert (Hin' : In ck (s_chk s)) by (rewrite <- (firstn_skipn (length (present (lf_chk m))) (s_chk s)); apply in_or_app; now right).
        destruct (A ck Hin') as [HO|HO]; [destruct (in_present _ _ HO) as [b' HO']; eapply O; eauto|]. exact (fine_new _ _ _ _ HO).
    + cbn [lf_res]. intros HD. destruct (B HD).
  - set (x := (e, lf_cfg m)).
    assert (S : SrcInv (known (x :: used)) (found (x :: used)) (drawable_in (x :: used)) s).
    { refine (arun_inv (SrcInv _ _ _) e acts _ _ _ _ H).
      - intros a t t'. apply src_step.
        + intros k. now left.
        + intros y Hy. exists x. split; [now left|exact Hy].
        + intros k q _ Hq. right. exists x. split; [now left|exact Hq].
      - apply src_start.
        + intros k Hk. exists x. split; [now left|]. apply launches_enabled in Hk. unfold enabled in Hk. destruct k; cbn; auto.
          * apply andb_true_iff in Hk. apply Hk.
          * apply andb_true_iff in Hk. destruct Hk. auto.
        + intros ck b Hin. exact (fine_cons x _ _ (I1 _ _ Hin)). }
    destruct S as (S1 & _ & S3). split.
    + cbn [lf_chk]. intros ck b Hin. unfold left_by in Hin. apply in_map_iff in Hin. destruct Hin as (y & Ey & Hin). injection Ey as E1 E2.
      apply In_nth_error in Hin. destruct Hin as [i Hi]. exact (proj1 (S1 i y Hi) ck E1).
    + cbn [lf_res]. intros HD. right. destruct S3 as [Hw|(k & Hk & [Hp|(y & Hy & Hp)] & Hq)].
      * exfalso. unfold weak in Hw. unfold definitive in HD. intuition congruence.
      * rewrite Hp in HD. destruct (ND HD).
      * exists k. split; [assumption|]. exists y. split; [assumption|]. split; [assumption|]. intros ->. destruct Hq; [congruence|assumption].
Qed.

Theorem life_source (used : list settings) (m : manager Stim Gen) : life used m -> definitive (r_eq (lf_res m)) ->
  (exists x, In x used /\ e_empty (fst x) = true /\ r_eq (lf_res m) = Equivalent) \/
  (exists x y k, In x used /\ finds used x k (r_eq (lf_res m)) /\ In y used /\ uses y k).
Proof.
  intros L HD. destruct (proj2 (life_inv _ _ L) HD) as [A|(k & (y & Y1 & Y2) & x & X1 & X2)]; [now left|right]. exists x, y, k. auto.
Qed.
Theorem life_sound (truth : criterion -> Prop) (used : list settings) (m : manager Stim Gen) : life used m ->
  (forall x, In x used -> e_empty (fst x) = true -> truth Equivalent) ->
  (forall (x y : settings) k q, In x used -> In y used -> uses y k -> finds used x k q -> definitive q -> truth q) ->
  definitive (r_eq (lf_res m)) -> truth (r_eq (lf_res m)).
Proof.
  intros L TE TK HD. destruct (life_source _ _ L HD) as [(x & X1 & X2 & ->)|(x & y & k & A & B & C & D)]; eauto.
Qed.
Theorem life_checkers (used : list settings) (m : manager Stim Gen) ck b : life used m -> In (Some ck, b) (lf_chk m) -> k_eq ck <> NoInformation ->
  exists x y : settings, In x used /\ computes (fst x) (drawable_in used) (k_kind ck) (k_eq ck) /\ In y used /\ uses y (k_kind ck).
Proof.
  intros L Hin HN. destruct (proj1 (life_inv _ _ L) _ _ Hin) as [[(y & Y1 & Y2) [E|(x & X1 & X2)]] _]; [congruence|]. exists x, y. auto.
Qed.
End Proofs.
