(** Lemmas about the Python entry points. *)
From Coq Require Import String List Bool QArith Arith Lia.
From Verif Require Import Criterion PyConfig PyParam PyEntry PyEntrySpec.
Import ListNotations.
Open Scope string_scope.
Local Open Scope nat_scope.

Lemma in_order_app {A} (a b : list (result unit)) (r : result A) : in_order (a ++ b) r = in_order a (in_order b r).
Proof. induction a as [|[u|x|] a IH]; cbn; auto. Qed.
Lemma in_order_ending {A B} (s : result B) (r : result A) l : in_order (ending s :: l) r = bind s (fun _ => in_order l r).
Proof. destruct s; reflexivity. Qed.

Section P.
Context {V C Q1 M X : Type}.
Variable w : world V C Q1 M X.
Implicit Types (o : object C) (c : pyconfig V).

Lemma import_ok o q : import_circuit w o = inl q <-> imports w o q.
Proof.
  unfold import_circuit. split.
  - destruct (missing w) eqn:E; [discriminate|]. destruct o; intros H; [now constructor|now constructor|discriminate].
  - intros H. inversion H; subst; rewrite H0; assumption.
Qed.
Lemma import_bad o msg : import_circuit w o = inr msg <-> refused w o msg.
Proof.
  unfold import_circuit. split.
  - destruct (missing w) eqn:E; [intros H; injection H as <-; now constructor|]. destruct o; intros H.
    + now constructor.
    + now constructor.
    + injection H as <-. now constructor.
  - intros H. inversion H; subst; rewrite H0; try assumption; reflexivity.
Qed.
Lemma manager_ok o1 o2 c m : manager w o1 o2 c = Ok m <-> exists q1 q2, imports w o1 q1 /\ imports w o2 q2 /\ construct w q1 q2 c = Ok m.
Proof.
  unfold manager. split.
  - destruct (import_circuit w o1) as [q1|] eqn:E1; [|discriminate]. destruct (import_circuit w o2) as [q2|] eqn:E2; [|discriminate].
    intros H. exists q1, q2. apply import_ok in E1, E2. auto.
  - intros (q1 & q2 & H1 & H2 & H3). apply import_ok in H1, H2. now rewrite H1, H2.
Qed.
Lemma manager_first o1 o2 c msg : refused w o1 msg -> manager w o1 o2 c = Raise (ERuntime ("Could not import first circuit: " ++ msg)).
Proof. intros H. apply import_bad in H. unfold manager. now rewrite H. Qed.
Lemma manager_second o1 o2 c q1 msg : imports w o1 q1 -> refused w o2 msg -> manager w o1 o2 c = Raise (ERuntime ("Could not import second circuit: " ++ msg)).
Proof. intros H1 H2. apply import_ok in H1. apply import_bad in H2. unfold manager. now rewrite H1, H2. Qed.

Lemma asked o : o <> OOther None -> exists b, is_parameterized w o = Ok b.
Proof. destruct o as [f|q|[b|]]; cbn; intros H; eauto. congruence. Qed.
Lemma plain_decided o1 o2 : without_parameters w o1 -> without_parameters w o2 -> either_parameterized w o1 o2 = Ok false.
Proof. destruct o1 as [f1|c1|p1], o2 as [f2|c2|p2]; cbn; intros H1 H2; try contradiction; try reflexivity; unfold either_parameterized; cbn; try rewrite H1; cbn; try rewrite H2; reflexivity. Qed.
Lemma param_decided o1 o2 : with_parameters w o1 o2 -> either_parameterized w o1 o2 = Ok true.
Proof.
  intros [(c & -> & H)|[H1 (c & -> & H)]]; unfold either_parameterized; cbn; [now rewrite H|].
  destruct o1; cbn in *; try contradiction; rewrite ?H1; cbn; now rewrite H.
Qed.

(** ** the flow for parameterised circuits *)
Definition pairs (n : nat) o1 o2 c (a m : nat) : list (result unit) :=
  concat (map (fun k => [ending (instantiation w n o1 o2 c k); ending (instantiated_check w n o1 o2 c k)]) (seq a m)).

Lemma rounds_in_order n o1 o2 c e (c1 c2 : C) (x : X) : tells w n o1 o2 c e -> extraction w o1 o2 = Ok (c1, c2, x) ->
  forall k i timeout rt s log, i + k = n -> forall res log', rounds e k i timeout rt s log = (res, log') ->
  exists m, length log' = length log + m /\ m <= k /\ (forall z, res = inr z -> m = k) /\
    py_rounds w c1 c2 x c k i timeout rt s = in_order (pairs n o1 o2 c (S i) m) (Ok res).
Proof.
  intros (T1 & T2 & T3 & T4 & T5 & T6) EX. induction k as [|k IH]; intros i timeout rt s log Ei res log' R.
  - cbn in R. injection R as <- <-. exists 0. repeat split; cbn; lia || auto.
  - cbn [rounds] in R. cbn [py_rounds].
    assert (EI : instantiation w n o1 o2 c (S i) = instantiate w c1 c2 x c (S i)).
    { unfold instantiation. rewrite EX. cbn [bind]. destruct (Nat.leb_spec (S i) n); [reflexivity|lia]. }
    assert (D : forall m, pairs n o1 o2 c (S i) (S m) = ending (instantiation w n o1 o2 c (S i)) :: ending (instantiated_check w n o1 o2 c (S i)) :: pairs n o1 o2 c (S (S i)) m) by reflexivity.
    set (res0 := phase e i) in *. set (t1 := adjust timeout (phase_time e i)) in *. set (t2 := adjust t1 (cost res0)) in *.
    assert (FAIL : bind (instantiate w c1 c2 x c (S i)) (fun '(i1, i2, _) => check_instantiated w i1 i2 c) = instantiated_check w n o1 o2 c (S i)).
    { unfold instantiated_check. now rewrite EI. }
    assert (STEP : forall m (cont : result (presult + Q * Q * stats)) (f : Q -> presult -> result (presult + Q * Q * stats)),
      (forall t r, phase_time e i = t -> phase e i = r -> f t r = in_order (pairs n o1 o2 c (S (S i)) m) cont) ->
      bind (instantiate w c1 c2 x c (S i)) (fun '(i1, i2, t) => bind (check_instantiated w i1 i2 c) (fun r => f t r)) =
      in_order (pairs n o1 o2 c (S i) (S m)) cont).
    { intros m cont f Hf. rewrite D, in_order_ending, EI. destruct (instantiate w c1 c2 x c (S i)) as [[[i1 i2] t]|xx|] eqn:E1; cbn [bind]; try reflexivity.
      rewrite in_order_ending. cbn [bind] in FAIL. rewrite <- FAIL.
      destruct (check_instantiated w i1 i2 c) as [r|xx|] eqn:E2; cbn [bind]; try reflexivity.
      apply Hf; [apply (T4 i i1 i2 t); [lia|now rewrite EI]|apply (T5 i r); [lia|now rewrite <- FAIL]]. }
    destruct (negative t2) eqn:N.
    + injection R as <- <-. exists 1. split; [rewrite app_length; cbn; lia|]. split; [lia|]. split; [discriminate|].
      apply STEP. intros t r <- <-. fold res0 t1 t2. now rewrite N.
    + destruct (criterion_eqb (r_eq res0) NotEquivalent) eqn:Q.
      * injection R as <- <-. exists 1. split; [rewrite app_length; cbn; lia|]. split; [lia|]. split; [discriminate|].
        apply STEP. intros t r <- <-. fold res0 t1 t2. now rewrite N, Q.
      * destruct (IH (S i) t2 (phase_time e i) (update s res0) (log ++ [res0])%list ltac:(lia) res log' R) as (m & L & Lm & F & EQ).
        exists (S m). split; [rewrite L, app_length; cbn; lia|]. split; [lia|]. split; [intros z Hz; rewrite (F z Hz); reflexivity|].
        apply STEP. intros t r <- <-. fold res0 t1 t2. rewrite N, Q. exact EQ.
Qed.


Lemma pairs_S n o1 o2 c a m : pairs n o1 o2 c a (S m) = ending (instantiation w n o1 o2 c a) :: ending (instantiated_check w n o1 o2 c a) :: pairs n o1 o2 c (S a) m.
Proof. reflexivity. Qed.
Lemma pairs_app n o1 o2 c a m m' : pairs n o1 o2 c a (m + m') = (pairs n o1 o2 c a m ++ pairs n o1 o2 c (a + m) m')%list.
Proof. unfold pairs. now rewrite seq_app, map_app, concat_app. Qed.

Lemma flow_in_order o1 o2 c e : let n := count w (c Parameterized "additional_instantiations") in
  tells w n o1 o2 c e ->
  let '(r, log) := check_parameterized e (num w (c Execution "timeout")) n in
  py_check_parameterized w o1 o2 c = in_order (steps_made w n o1 o2 c (consideredEquivalent (r_eq (zx e))) (length log)) (Ok r).
Proof.
  intros n T. destruct (check_parameterized e (num w (c Execution "timeout")) n) as [r log] eqn:R.
  pose proof T as (T1 & T2 & T3 & T4 & T5 & T6).
  unfold py_check_parameterized. unfold steps_made. rewrite in_order_ending. unfold symbolic_check in *.
  destruct (check_parameterized_zx w o1 o2 c) as [rz| |] eqn:EZ; cbn [bind]; [|reflexivity|reflexivity].
  specialize (T1 rz eq_refl). unfold check_parameterized in R. fold n. rewrite <- T1.
  destruct (consideredEquivalent (r_eq (zx e))) eqn:CE; [injection R as <- <-; reflexivity|].
  unfold steps_with. cbn [app]. rewrite in_order_ending. unfold extraction.
  destruct (extract_params w o1 o2) as [[[c1 c2] x]| |] eqn:EX; cbn [bind]; [|reflexivity|reflexivity].
  fold (pairs n o1 o2 c 0 (length log)).
  assert (EI : instantiation w n o1 o2 c 0 = instantiate w c1 c2 x c 0).
  { unfold instantiation, extraction. rewrite EX. reflexivity. }
  rewrite in_order_ending, EI.
  destruct (instantiate w c1 c2 x c 0) as [[[i1 i2] t0]| |] eqn:E0; cbn [bind]; [|reflexivity|reflexivity].
  specialize (T2 i1 i2 t0 EI). subst t0.
  match type of R with context [negative ?t] => destruct (negative t) eqn:N end; [injection R as <- <-; reflexivity|].
  assert (EC : instantiated_check w n o1 o2 c 0 = check_instantiated w i1 i2 c) by (unfold instantiated_check; now rewrite EI).
  set (tt0 := adjust (adjust (num w (c Execution "timeout")) (cost (zx e))) (zero_time e)) in *.
  set (s0 := update (mkStats 0 0 0 0) (zx e)) in *.
  assert (L0 : forall m (cont : result presult) f, (forall r0, zero e = r0 -> f r0 = in_order (pairs n o1 o2 c 1 m) cont) ->
    bind (check_instantiated w i1 i2 c) f = in_order (pairs n o1 o2 c 0 (S m)) cont).
  { intros m cont f Hf. rewrite pairs_S, in_order_ending, EI. cbn [bind]. rewrite in_order_ending, EC.
    destruct (check_instantiated w i1 i2 c) as [r0| |] eqn:E1; cbn [bind]; [|reflexivity|reflexivity]. apply Hf. apply T3. exact EC. }
  destruct (criterion_eqb (r_eq (zero e)) NotEquivalent) eqn:Q.
  - injection R as <- <-. apply L0. intros r0 <-. now rewrite Q.
  - destruct (rounds e n 0 tt0 (zero_time e) (update s0 (zero e)) [zero e]) as [res log'] eqn:RR.
    destruct (rounds_in_order n o1 o2 c e c1 c2 x T EX n 0 tt0 (zero_time e) (update s0 (zero e)) [zero e] ltac:(lia) res log' RR) as (m & L & Lm & F & EQ).
    cbn [length] in L. destruct res as [rr|[[t1 rt1] s1]].
    + injection R as <- <-. rewrite L. change (1 + m) with (S m). apply L0. intros r0 <-. rewrite Q, EQ.
      generalize (pairs n o1 o2 c 1 m) as l. induction l as [|[u|xx|] l IHl]; cbn; auto.
    + injection R as <- <-. rewrite app_length, L. cbn [length]. replace (1 + m + 1) with (S (m + 1)) by lia.
      apply L0. intros r0 <-. rewrite Q, EQ, pairs_app, in_order_app. rewrite (F _ eq_refl).
      match goal with |- bind (in_order ?l _) ?f = in_order ?l ?k => assert (G : f (inr (t1, rt1, s1)) = k) end.
      { change (1 + n) with (S n). rewrite pairs_S. rewrite in_order_ending.
        assert (ER : instantiation w n o1 o2 c (S n) = bind (instantiate_random w c1 c2 x) (fun '(r1, r2) => Ok (r1, r2, 0%Q))).
        { unfold instantiation, extraction. rewrite EX. cbn [bind]. destruct (Nat.leb_spec (S n) n); [lia|reflexivity]. }
        assert (ERC : instantiated_check w n o1 o2 c (S n) = bind (instantiate_random w c1 c2 x) (fun '(r1, r2) => check_instantiated w r1 r2 c)).
        { unfold instantiated_check. rewrite ER. destruct (instantiate_random w c1 c2 x) as [[r1 r2]| |]; reflexivity. }
        rewrite ER. destruct (instantiate_random w c1 c2 x) as [[r1 r2]| |] eqn:EIR; cbn [bind]; [|reflexivity|reflexivity].
        cbn [pairs concat map seq]. rewrite in_order_ending, ERC. cbn [bind].
        destruct (check_instantiated w r1 r2 c) as [rf| |] eqn:ECR; cbn [bind]; [|reflexivity|reflexivity].
        rewrite (T6 rf (eq_trans ERC ECR)). reflexivity. }
      rewrite <- G. generalize (pairs n o1 o2 c 1 n) as l. induction l as [|[u|xx|] l IHl]; cbn; auto.
Qed.

(** there always is such an input of C45's flow *)
Definition dflt : presult := mkPResult NoInformation 0 0 0 0 0.
Definition val {A} (d : A) (r : result A) : A := match r with Ok a => a | _ => d end.
Definition time_of (r : result (C * C * Q)) : Q := match r with Ok (_, _, t) => t | _ => 0 end.
Definition told n o1 o2 c : penv :=
  mkPEnv (val dflt (symbolic_check w o1 o2 c)) (time_of (instantiation w n o1 o2 c 0)) (val dflt (instantiated_check w n o1 o2 c 0))
    (fun i => time_of (instantiation w n o1 o2 c (S i))) (fun i => val dflt (instantiated_check w n o1 o2 c (S i))) (val dflt (instantiated_check w n o1 o2 c (S n))).
Lemma told_tells n o1 o2 c : tells w n o1 o2 c (told n o1 o2 c).
Proof. unfold tells, told. cbn. repeat split; intros; match goal with H : _ = Ok _ |- _ => now rewrite H end. Qed.

Lemma in_order_Ok {A} l (v r : A) : in_order l (Ok v) = Ok r -> r = v /\ forall s, In s l -> s = Ok tt.
Proof.
  induction l as [|[[]|x|] l IH]; cbn; try discriminate.
  - intros H. injection H as <-. split; [reflexivity|intros s []].
  - intros H. destruct (IH H) as [-> F]. split; [reflexivity|]. intros s [<- |Hs]; auto.
Qed.
End P.
