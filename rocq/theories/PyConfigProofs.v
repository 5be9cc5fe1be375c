From Coq Require Import String Ascii List Bool ZArith Decimal DecimalString DecimalZ DecimalPos.
From Verif Require Import PyConfig.
Import ListNotations.
Open Scope string_scope.

Lemma hasattr_in s k : hasattr s k = true <-> In k (attrs s).
Proof.
  unfold hasattr. rewrite existsb_exists. split; [intros (x & I & E); apply String.eqb_eq in E; now subst|intros I; exists k; split; auto; apply String.eqb_refl].
Qed.
Lemma sect_eqb_eq a b : sect_eqb a b = true <-> a = b.
Proof. destruct a, b; cbn; split; congruence. Qed.
Definition sections : list sect := [Application; Execution; Functionality; Optimizations; Parameterized; Simulation].
Lemma sections_all s : In s sections.
Proof. destruct s; cbn; tauto. Qed.
Lemma unique_section k s s' : In k (attrs s) -> In k (attrs s') -> s = s'.
Proof.
  assert (H : forallb (fun s => forallb (fun s' => sect_eqb s s' || forallb (fun k => negb (hasattr s' k)) (attrs s)) sections) sections = true) by (vm_compute; reflexivity).
  rewrite forallb_forall in H. specialize (H s (sections_all s)). rewrite forallb_forall in H. specialize (H s' (sections_all s')).
  intros I I'. apply orb_true_iff in H as [H|H]; [now apply sect_eqb_eq|]. rewrite forallb_forall in H. specialize (H k I). apply hasattr_in in I'. now rewrite I' in H.
Qed.
Lemma dispatch_iff k s : dispatch k = Some s <-> In k (attrs s).
Proof.
  unfold dispatch. split.
  - repeat match goal with |- context [hasattr ?x k] => destruct (hasattr x k) eqn:? end; intros E; injection E as <- || discriminate; now apply hasattr_in.
  - intros I. assert (D : forall s', hasattr s' k = true -> s' = s) by (intros s' H; apply hasattr_in in H; eapply unique_section; eauto).
    repeat match goal with |- context [hasattr ?x k] => destruct (hasattr x k) eqn:?; [f_equal; now apply D|] end.
    exfalso. apply hasattr_in in I. destruct s; congruence.
Qed.
Lemma dispatch_none k : dispatch k = None <-> forall s, ~ In k (attrs s).
Proof.
  split.
  - intros H s I. apply dispatch_iff in I. congruence.
  - intros H. destruct (dispatch k) as [s|] eqn:E; auto. apply dispatch_iff in E. now apply H in E.
Qed.

Section Config.
Context {V : Type} (convert : sect -> string -> V -> option V).
Notation augment := (augment convert).
Lemma get_set (c : pyconfig V) s k v s' k' : setattr c s k v s' k' = if sect_eqb s' s && String.eqb k' k then v else c s' k'.
Proof. reflexivity. Qed.
Lemma augment_app kw kw' : forall c, augment c (kw ++ kw') = match augment c kw with (c', None) => augment c' kw' | (c', Some e) => (c', Some e) end.
Proof.
  induction kw as [|[k v] kw IH]; intros c; [reflexivity|]. cbn [PyConfig.augment List.app]. destruct (dispatch k) as [s|]; [|reflexivity]. destruct (convert s k v); [apply IH|reflexivity].
Qed.
(* options not named keep their values, whatever happens *)
Lemma augment_other kw : forall c s k, ~ In k (map fst kw) -> fst (augment c kw) s k = c s k.
Proof.
  induction kw as [|[k0 v] kw IH]; intros c s k N; cbn [PyConfig.augment]; auto. destruct (dispatch k0) as [s0|]; auto. destruct (convert s0 k0 v); auto.
  rewrite IH by (intros I; apply N; now right). rewrite get_set. destruct (String.eqb_spec k k0) as [->|]; [exfalso; apply N; now left|]. now rewrite andb_false_r.
Qed.
Lemma augment_foreign kw : forall c s k, ~ In k (attrs s) -> fst (augment c kw) s k = c s k.
Proof.
  induction kw as [|[k0 v] kw IH]; intros c s k N; cbn [PyConfig.augment]; auto. destruct (dispatch k0) as [s0|] eqn:D; auto. destruct (convert s0 k0 v); auto.
  rewrite IH by auto. rewrite get_set. destruct (sect_eqb s s0 && String.eqb k k0) eqn:E; auto. apply andb_true_iff in E as [E1 E2]. apply sect_eqb_eq in E1. apply String.eqb_eq in E2. subst.
  apply dispatch_iff in D. tauto.
Qed.
(* the last value given for an option wins *)
Lemma augment_last kw kw' c c' k v s : augment c (kw ++ (k, v) :: kw') = (c', None) -> ~ In k (map fst kw') -> In k (attrs s) -> convert s k v = Some (c' s k).
Proof.
  rewrite augment_app. destruct (augment c kw) as [c1 [e|]]; [discriminate|]. cbn [PyConfig.augment]. intros E N I. apply dispatch_iff in I. rewrite I in E.
  destruct (convert s k v) as [v'|] eqn:Cv; [|discriminate].
  pose proof (augment_other kw' (setattr c1 s k v') s k N) as H. rewrite E in H. cbn [fst] in H. rewrite H, get_set, String.eqb_refl.
  now destruct s.
Qed.
Lemma augment_ok_iff kw : forall c, snd (augment c kw) = None <-> Forall (fun e => exists s, In (fst e) (attrs s) /\ convert s (fst e) (snd e) <> None) kw.
Proof.
  induction kw as [|[k v] kw IH]; intros c; cbn [PyConfig.augment].
  - split; auto.
  - destruct (dispatch k) as [s|] eqn:D.
    + destruct (convert s k v) as [v'|] eqn:Cv.
      * rewrite IH. split; [|intros H; now inversion H]. intros H. constructor; auto. exists s. split; [now apply dispatch_iff|cbn; congruence].
      * split; [discriminate|]. intros H. inversion H as [|? ? (s' & I & N) _]. cbn [fst snd] in *. apply dispatch_iff in I. rewrite D in I. injection I as <-. congruence.
    + split; [discriminate|]. intros H. inversion H as [|? ? (s' & I & N) _]. cbn [fst snd] in *. apply dispatch_iff in I. congruence.
Qed.
Lemma augment_error kw : forall c c' e, augment c kw = (c', Some e) ->
  exists pre k v post, kw = (pre ++ (k, v) :: post)%list /\ augment c pre = (c', None) /\
    ((e = ValueError k /\ forall s, ~ In k (attrs s)) \/ (e = TypeError k /\ exists s, In k (attrs s) /\ convert s k v = None)).
Proof.
  induction kw as [|[k v] kw IH]; intros c c' e E; cbn [PyConfig.augment] in E; [discriminate|]. destruct (dispatch k) as [s|] eqn:D.
  - destruct (convert s k v) as [v'|] eqn:Cv.
    + apply IH in E as (pre & k' & v2 & post & -> & E & H). exists ((k, v) :: pre), k', v2, post. split; auto. split; auto. cbn [PyConfig.augment]. now rewrite D, Cv.
    + injection E as <- <-. exists [], k, v, kw. split; auto. split; auto. right. split; auto. exists s. split; auto. now apply dispatch_iff.
  - injection E as <- <-. exists [], k, v, kw. split; auto. split; auto. left. split; auto. now apply dispatch_none.
Qed.
End Config.

(** ** profile names *)
Fixpoint las (s : string) : list ascii := match s with EmptyString => [] | String c r => c :: las r end.
Lemma las_app s t : las (s ++ t) = (las s ++ las t)%list.
Proof. induction s as [|c s IH]; cbn; auto. now rewrite IH. Qed.
Lemma las_inj s t : las s = las t -> s = t.
Proof. revert t; induction s as [|c s IH]; intros [|d t]; cbn; try discriminate; auto. intros E. injection E as -> E. f_equal. auto. Qed.
Lemma split_first {T} (x : T) a b a' b' : ~ In x a -> ~ In x a' -> (a ++ x :: b = a' ++ x :: b')%list -> a = a' /\ b = b'.
Proof.
  revert a'. induction a as [|c a IH]; intros [|c' a'] N N' E; cbn in *.
  - now injection E.
  - injection E as -> _. tauto.
  - injection E as <- _. tauto.
  - injection E as -> E. destruct (IH a') as [-> ->]; auto; tauto.
Qed.
Lemma str_uint_no u : ~ In "_"%char (las (NilEmpty.string_of_uint u)).
Proof. induction u; cbn; intros H; try tauto; destruct H as [H|H]; try discriminate; auto. Qed.
Lemma str_int_no z : ~ In "_"%char (las (str_int z)).
Proof.
  unfold str_int, NilZero.string_of_int, NilZero.string_of_uint. destruct (Z.to_int z) as [u|u]; destruct u eqn:E; cbn; intros H;
    repeat (destruct H as [H|H]; try discriminate); try tauto; eapply str_uint_no; eauto.
Qed.
Lemma to_int_nonnil z : Z.to_int z <> Pos Nil /\ Z.to_int z <> Neg Nil.
Proof. destruct z; cbn; split; try discriminate; intros E; injection E as E; now apply (Unsigned.to_uint_nonnil p). Qed.
Lemma str_int_inj z z' : str_int z = str_int z' -> z = z'.
Proof.
  intros E. apply to_int_inj. assert (X : NilZero.int_of_string (str_int z) = NilZero.int_of_string (str_int z')) by now rewrite E.
  unfold str_int in X. destruct (to_int_nonnil z) as [A B], (to_int_nonnil z') as [A' B']. rewrite !NilZero.isi in X by auto. now injection X.
Qed.
Lemma name_inj l l' m m' : generate_profile_name l m = generate_profile_name l' m' -> l = l' /\ m = m'.
Proof.
  unfold generate_profile_name. intros E. apply (f_equal las) in E. rewrite !las_app in E. apply app_inv_head in E.
  change (las "_") with ["_"%char] in E. cbn [List.app] in E. apply split_first in E; try apply str_int_no. destruct E as [E1 E2].
  apply las_inj, str_int_inj in E1. split; auto. destruct m, m'; cbn in E2; congruence.
Qed.
