(** Lemmas for C83. *)
From Coq Require Import String List Bool Arith Lia.
From Verif Require Import PyConfig PyObjects PyObjectsSpec.
Import ListNotations.
Local Open Scope list_scope.
Local Open Scope nat_scope.

Lemma enum_iff s k : is_enum s k = true <-> enumeration_option s k.
Proof.
  unfold enumeration_option. cbn [In]. destruct s; cbn [is_enum];
    try (split; [discriminate|intros H; repeat (destruct H as [H|H]; [discriminate|]); destruct H]).
  - rewrite existsb_exists. split.
    + intros (x & I & E). apply String.eqb_eq in E. subst x. cbn [In] in I. decompose [or] I; subst; tauto.
    + intros H. exists k. split; [|apply String.eqb_refl]. cbn [In]. decompose [or] H; try contradiction; try congruence;
        match goal with E : (_, _) = (_, _) |- _ => injection E as <- end; tauto.
  - rewrite String.eqb_eq. split; [intros ->; tauto|]. intros H. decompose [or] H; try contradiction; try discriminate; match goal with E : (_, _) = (_, _) |- _ => injection E as E end; now symmetry.
Qed.
Lemma put_same {A} (l : list A) i y z : nth_error l i = Some z -> nth_error (put l i y) i = Some y.
Proof. revert i. induction l as [|h l IH]; intros [|i] H; try discriminate; cbn in *; auto. Qed.
Lemma put_other {A} (l : list A) i j y : i <> j -> nth_error (put l i y) j = nth_error l j.
Proof. revert i j. induction l as [|h l IH]; intros [|i] [|j] H; cbn; auto; congruence. Qed.
Lemma put_length {A} (l : list A) i y : length (put l i y) = length l.
Proof. revert i. induction l as [|h l IH]; intros [|i]; cbn; auto. Qed.
Lemma nth_app_some {A} (l m : list A) i z : nth_error l i = Some z -> nth_error (l ++ m) i = Some z.
Proof. intros H. rewrite nth_error_app1; auto. apply nth_error_Some. congruence. Qed.
Lemma nth_app_last {A} (l : list A) z : nth_error (l ++ [z]) (length l) = Some z.
Proof. rewrite nth_error_app2, Nat.sub_diag by lia. reflexivity. Qed.
Lemma sect_eqb_eq x y : sect_eqb x y = true <-> x = y.
Proof. destruct x, y; cbn; split; congruence. Qed.
Lemma sect_eqb_refl x : sect_eqb x x = true.
Proof. now destruct x. Qed.

Section Proofs.
Context {V C K Op : Type}.
Variable a : api V C K Op.
Notation state := (state V K).
Implicit Types (t : state).

Lemma set_conf_frame t p c t' o : set_conf t p c = Some t' -> o <> owner p -> contents_of t' o = contents_of t o.
Proof.
  destruct p as [i|i]; cbn [set_conf owner]; intros H N.
  - destruct (Nat.ltb i (length (st_conf t))); [|discriminate]. injection H as <-. destruct o; cbn; auto. rewrite put_other; [reflexivity|congruence].
  - destruct (nth_error (st_res t) i); [|discriminate]. injection H as <-. destruct o; cbn; auto. rewrite put_other; [reflexivity|congruence].
Qed.
Lemma set_section_frame t q f t' o : set_section t q f = Some t' -> o <> section_owner q -> contents_of t' o = contents_of t o.
Proof.
  destruct q as [p s|i]; cbn; intros H N.
  - destruct (conf_at t p); [|discriminate]. eapply set_conf_frame; eauto.
  - destruct (nth_error (st_sec t) i); [|discriminate]. injection H as <-. destruct o; cbn; auto. rewrite put_other; [reflexivity|congruence].
Qed.
Lemma set_conf_vars t p c t' : set_conf t p c = Some t' -> st_var t' = st_var t.
Proof. destruct p as [i|i]; cbn [set_conf]; [destruct (Nat.ltb i (length (st_conf t)))|destruct (nth_error (st_res t) i)]; try discriminate; now injection 1 as <-. Qed.
Lemma set_section_vars t q f t' : set_section t q f = Some t' -> st_var t' = st_var t.
Proof.
  destruct q as [p s|i]; cbn; [destruct (conf_at t p); [apply set_conf_vars|discriminate]|].
  destruct (nth_error (st_sec t) i); try discriminate; now injection 1 as <-.
Qed.

Ltac split_step H :=
  repeat match type of H with
  | match ?u with _ => _ end = Some _ => destruct u eqn:?; try discriminate
  | (if ?u then _ else _) = Some _ => destruct u eqn:?; try discriminate
  end.

(** a statement changes at most the object it aims at; everything else stays *)
Lemma step_frame t i t' o z : step a t i = Some t' -> ~ aims_at t i o -> contents_of t o = Some z -> contents_of t' o = Some z.
Proof.
  intros H N Z. destruct i; cbn [step] in H.
  - injection H as <-. exact Z.
  - injection H as <-. destruct o; cbn in *; auto. destruct (nth_error (st_conf t) i) eqn:E; [|discriminate]. now rewrite (nth_app_some _ _ _ _ E).
  - injection H as <-. destruct o; cbn in *; auto. destruct (nth_error (st_sec t) i) eqn:E; [|discriminate]. now rewrite (nth_app_some _ _ _ _ E).
  - split_step H. injection H as <-. exact Z.
  - split_step H. injection H as <-. exact Z.
  - split_step H. injection H as <-. exact Z.
  - split_step H. injection H as <-. exact Z.
  - split_step H. injection H as <-. destruct o; cbn in *; auto. destruct (nth_error (st_man t) i) eqn:E; [|discriminate]. now rewrite (nth_app_some _ _ _ _ E).
  - split_step H. injection H as <-. destruct o; cbn in *; auto. destruct (nth_error (st_conf t) i0) eqn:E; [|discriminate]. now rewrite (nth_app_some _ _ _ _ E).
  - split_step H. injection H as <-. destruct o; cbn in *; auto. destruct (nth_error (st_res t) i0) eqn:E; [|discriminate]. now rewrite (nth_app_some _ _ _ _ E).
  - split_step H. rewrite <- Z. eapply set_section_frame; [exact H|]. intros ->. apply N. now constructor.
  - split_step H. rewrite <- Z. eapply (set_section_frame _ (SInside p0 s)); [exact H|]. cbn. intros ->. apply N. now constructor.
  - split_step H. injection H as <-. destruct o; cbn in *; auto. rewrite put_other; auto. intros ->. apply N. now constructor.
  - split_step H. rewrite <- Z. eapply (set_conf_frame _ (PResults i)); [exact H|]. cbn. intros ->. apply N. now constructor.
  - split_step H. injection H as <-. destruct o; cbn in *; auto. rewrite put_other; auto. intros ->. apply N. now constructor.
  - split_step H. injection H as <-. destruct o; cbn in *; auto. rewrite put_other; auto. intros ->. apply N. now constructor.
Qed.

Lemma step_vars t i t' x w : step a t i = Some t' -> holds t x w -> holds t' x w.
Proof.
  intros H Z. unfold holds in *. destruct i; cbn [step] in H; split_step H; try (injection H as <-; cbn; try exact Z; now apply nth_app_some).
  - now rewrite (set_section_vars _ _ _ _ H).
  - now rewrite (set_section_vars _ (SInside p0 s) _ _ H).
  - now rewrite (set_conf_vars _ _ _ _ H).
Qed.
Lemma exec_vars l t x w : holds t x w -> holds (exec a t l) x w.
Proof.
  revert t. induction l as [|i l IH]; intros t H; [exact H|]. cbn. apply IH. destruct (step a t i) as [t'|] eqn:E; [|exact H].
  eapply step_vars; eauto.
Qed.
Lemma exec_frame l t o z : contents_of t o = Some z -> leaves_alone a t l o -> contents_of (exec a t l) o = Some z.
Proof.
  revert t. induction l as [|i l IH]; intros t Z H; [exact Z|]. cbn in *. destruct H as [N H]. apply IH; [|exact H].
  destruct (step a t i) as [t'|] eqn:E; [|exact Z]. eapply step_frame; eauto.
Qed.

(** managers *)
Lemma exec_manager l t j m : nth_error (st_man t) j = Some m ->
  nth_error (st_man (exec a t l)) j = Some (fold_left (called a) (calls_on a t l j) m).
Proof.
  revert t m. induction l as [|i l IH]; intros t m Hm; [exact Hm|]. cbn [exec calls_on]. rewrite fold_left_app. apply IH.
  assert (F : forall t', step a t i = Some t' -> ~ aims_at t i (OMan j) -> nth_error (st_man t') j = Some m).
  { intros t' Ht N. pose proof (step_frame t i t' (OMan j) (CMan m) Ht N) as P. cbn in P. rewrite Hm in P. specialize (P eq_refl).
    destruct (nth_error (st_man t') j); [|discriminate]. now injection P as ->. }
  assert (G : ~ aims_at t i (OMan j) -> nth_error (st_man (match step a t i with Some t' => t' | None => t end)) j = Some m).
  { intros N. destruct (step a t i) as [t'|] eqn:E; [|exact Hm]. now apply F. }
  destruct i; cbn [fold_left]; try (apply G; intros N; inversion N; fail).
  - apply G. intros N; inversion N. now destruct q as [[|]|].
  - apply G. intros N; inversion N. now destruct p.
  - destruct (nth_error (st_var t) x) as [w|] eqn:Ex.
    2:{ cbn [fold_left]. apply G. intros N; inversion N as [| | | |? ? ? HH|]. unfold holds in HH. congruence. }
    destruct w; try (cbn [fold_left]; apply G; intros N; inversion N as [| | | |? ? ? HH|]; unfold holds in HH; congruence).
    destruct (Nat.eqb_spec i j) as [->|NE]; cbn [fold_left].
    + cbn [step]. rewrite Ex, Hm. unfold called. destruct (method a o (mn_rest m) (mn_conf m)) as [[r c]|]; cbn; [|exact Hm].
      eapply put_same; eauto.
    + apply G. intros N; inversion N as [| | | |? ? ? HH|]. unfold holds in HH. congruence.
  - destruct (nth_error (st_var t) x) as [w|] eqn:Ex.
    2:{ cbn [fold_left]. apply G. intros N; inversion N as [| | | | |? ? HH]. unfold holds in HH. congruence. }
    destruct w; try (cbn [fold_left]; apply G; intros N; inversion N as [| | | | |? ? HH]; unfold holds in HH; congruence).
    destruct (Nat.eqb_spec i j) as [->|NE]; cbn [fold_left].
    + cbn [step]. rewrite Ex, Hm. unfold called. destruct (run a (mn_rest m) (mn_conf m) (rs_field (mn_res m))) as [[r c] f]; cbn.
      eapply put_same; eauto.
    + apply G. intros N; inversion N as [| | | | |? ? HH]. unfold holds in HH. congruence.
Qed.

(** reading after writing *)
Lemma conf_set t p c t' c0 : conf_at t p = Some c0 -> set_conf t p c = Some t' ->
  conf_at t' p = Some c /\ (forall p', p' <> p -> conf_at t' p' = conf_at t p') /\ st_sec t' = st_sec t.
Proof.
  destruct p as [i|i]; cbn [set_conf conf_at]; intros H0 H.
  - destruct (Nat.ltb i (length (st_conf t))); [|discriminate]. injection H as <-. cbn. split; [eapply put_same; eauto|]. split; [|reflexivity].
    intros [i'|i'] N; cbn; auto. rewrite put_other; [reflexivity|congruence].
  - destruct (nth_error (st_res t) i) as [r|] eqn:E; [|discriminate]. injection H as <-. cbn. rewrite (put_same _ _ _ _ E). split; [reflexivity|].
    split; [|reflexivity]. intros [i'|i'] N; cbn; auto. rewrite put_other; [reflexivity|congruence].
Qed.
Lemma section_set_frame t q f t' z : section_at t q = Some z -> set_section t q f = Some t' ->
  section_at t' q = Some (mkSec (sc_sect z) f) /\ (forall q', q' <> q -> section_at t' q' = section_at t q').
Proof.
  destruct q as [p s|i]; cbn; intros H0 H.
  - destruct (conf_at t p) as [c0|] eqn:E; [|discriminate]. cbn in H0. injection H0 as <-. destruct (conf_set _ _ _ _ _ E H) as (A & B & D). split.
    + rewrite A. cbn. unfold with_section. rewrite sect_eqb_refl. reflexivity.
    + intros [p' s'|i'] N; cbn; [|now rewrite D].
      assert (PD : p' = p \/ p' <> p) by (destruct p as [n|n], p' as [n'|n']; try (right; discriminate); destruct (Nat.eq_dec n' n) as [->|]; auto; right; congruence).
      destruct PD as [->|NP]; [|now rewrite B].
      rewrite A, E. cbn. unfold with_section. destruct (sect_eqb s' s) eqn:ES; [apply sect_eqb_eq in ES; congruence|reflexivity].
  - rewrite H0 in H. injection H as <-. cbn. split; [eapply put_same; eauto|]. intros [p' s'|i'] N; cbn.
    + destruct p'; reflexivity.
    + rewrite put_other; [reflexivity|congruence].
Qed.
Lemma set_option_effect t x k y t' q : step a t (SSetOption x k y) = Some t' -> holds t x (VSection q) ->
  exists w v s v', holds t y w /\ value_of t w = Some v /\ option_map sc_sect (section_at t q) = Some s /\ hasattr s k = true /\
    convert a s k v = Some v' /\
    option_at t' q k = Some v' /\
    (forall q' k', q' <> q \/ k' <> k -> option_at t' q' k' = option_at t q' k').
Proof.
  intros H Hx. cbn in H. unfold holds in *. rewrite Hx in H. destruct (nth_error (st_var t) y) as [w|] eqn:Ey; [|discriminate].
  destruct (section_at t q) as [z|] eqn:Ez; [|discriminate]. destruct (value_of t w) as [v|] eqn:Ev; [|discriminate].
  destruct (hasattr (sc_sect z) k) eqn:Eh; [|discriminate]. destruct (convert a (sc_sect z) k v) as [v'|] eqn:Ec; [|discriminate].
  destruct (section_set_frame _ _ _ _ _ Ez H) as [A B].
  exists w, v, (sc_sect z), v'. repeat split; auto.
  - unfold option_at. rewrite A. cbn. now rewrite String.eqb_refl.
  - intros q' k' D. unfold option_at. 
    assert (QD : q' = q \/ q' <> q).
    { destruct q as [[n|n] s|n], q' as [[n'|n'] s'|n']; try (right; discriminate);
      destruct (Nat.eq_dec n' n) as [->|]; try (right; congruence); try (now left);
      destruct (sect_eqb s' s) eqn:ES; [left; apply sect_eqb_eq in ES; congruence|right|left; apply sect_eqb_eq in ES; congruence|right];
      intros E; injection E as ->; rewrite sect_eqb_refl in ES; discriminate. }
    destruct QD as [->|NQ]; [|now rewrite B]. rewrite A, Ez. cbn. destruct D as [D|D]; [congruence|].
    destruct (String.eqb_spec k' k); [congruence|reflexivity].
Qed.
Lemma set_section_effect t x s y t' p : step a t (SSetSection x s y) = Some t' -> holds t x (VConfiguration p) ->
  exists q, holds t y (VSection q) /\
    (forall k, option_at t' (SInside p s) k = option_at t q k) /\
    (forall q' k, q' <> SInside p s -> option_at t' q' k = option_at t q' k).
Proof.
  intros H Hx. cbn [step] in H. unfold holds in *. rewrite Hx in H. destruct (nth_error (st_var t) y) as [[| |q| | | |]|] eqn:Ey; try discriminate.
  destruct (section_at t q) as [z|] eqn:Ez; [|discriminate]. destruct (sect_eqb (sc_sect z) s) eqn:Es; [|discriminate].
  exists q. split; [reflexivity|].
  assert (E0 : exists z0, section_at t (SInside p s) = Some z0).
  { cbn in *. destruct (conf_at t p); [cbn; eauto|discriminate]. }
  destruct E0 as [z0 E0]. destruct (section_set_frame _ _ _ _ _ E0 H) as [A B]. split.
  - intros k. unfold option_at. rewrite A, Ez. reflexivity.
  - intros q' k N. unfold option_at. now rewrite B.
Qed.
End Proofs.

Section Proofs2.
Context {V C K Op : Type}.
Variable a : api V C K Op.
Notation state := (state V K).
Implicit Types (t : state).

Lemma step_exec t i l t' : step a t i = Some t' -> exec a t (i :: l) = exec a t' l.
Proof. intros H. cbn. now rewrite H. Qed.


Lemma get_configuration_effect t x t' : step a t (SGetConfiguration x) = Some t' ->
  exists j m i, holds t x (VManager j) /\ contents_of t (OMan j) = Some (CMan m) /\
    contents_of t (OConf i) = None /\ contents_of t' (OConf i) = Some (CConf (mn_conf m)) /\
    st_var t' = st_var t ++ [VConfiguration (PConfig i)].
Proof.
  cbn [step]. unfold holds. destruct (nth_error (st_var t) x) as [[| | |j| | |]|] eqn:Ex; try discriminate.
  destruct (nth_error (st_man t) j) as [m|] eqn:Em; [|discriminate]. injection 1 as <-.
  exists j, m, (length (st_conf t)). cbn. rewrite Em, nth_app_last. replace (nth_error (st_conf t) (length (st_conf t))) with (@None (pyconfig V)) by (symmetry; now apply nth_error_None). now repeat split.
Qed.
Lemma get_results_effect t x t' : step a t (SGetResults x) = Some t' ->
  exists j m i, holds t x (VManager j) /\ contents_of t (OMan j) = Some (CMan m) /\
    contents_of t (ORes i) = None /\ contents_of t' (ORes i) = Some (CRes (mn_res m)) /\
    st_var t' = st_var t ++ [VResults i].
Proof.
  cbn [step]. unfold holds. destruct (nth_error (st_var t) x) as [[| | |j| | |]|] eqn:Ex; try discriminate.
  destruct (nth_error (st_man t) j) as [m|] eqn:Em; [|discriminate]. injection 1 as <-.
  exists j, m, (length (st_res t)). cbn. rewrite Em, nth_app_last. replace (nth_error (st_res t) (length (st_res t))) with (@None (resv V)) by (symmetry; now apply nth_error_None). now repeat split.
Qed.
Lemma new_manager_effect t c x t' : step a t (SNewManager c x) = Some t' ->
  exists p cf m i, holds t x (VConfiguration p) /\ conf_at t p = Some cf /\ construct a c cf = Some m /\
    contents_of t (OMan i) = None /\ contents_of t' (OMan i) = Some (CMan m) /\
    st_var t' = st_var t ++ [VManager i].
Proof.
  cbn [step]. unfold holds. destruct (nth_error (st_var t) x) as [[|p| | | | |]|] eqn:Ex; try discriminate.
  destruct (conf_at t p) as [cf|] eqn:Ec; [|discriminate]. destruct (construct a c cf) as [m|] eqn:Em; [|discriminate]. injection 1 as <-.
  exists p, cf, m, (length (st_man t)). cbn. rewrite nth_app_last. replace (nth_error (st_man t) (length (st_man t))) with (@None (manager V K)) by (symmetry; now apply nth_error_None). now repeat split.
Qed.
Lemma run_effect t x t' : step a t (SRun x) = Some t' ->
  exists j m r c f, holds t x (VManager j) /\ contents_of t (OMan j) = Some (CMan m) /\
    run a (mn_rest m) (mn_conf m) (rs_field (mn_res m)) = (r, c, f) /\
    contents_of t' (OMan j) = Some (CMan (mkMan r c (mkRes (mn_conf m) f))).
Proof.
  cbn [step]. unfold holds. destruct (nth_error (st_var t) x) as [[| | |j| | |]|] eqn:Ex; try discriminate.
  destruct (nth_error (st_man t) j) as [m|] eqn:Em; [|discriminate]. destruct (run a (mn_rest m) (mn_conf m) (rs_field (mn_res m))) as [[r c] f] eqn:Er.
  injection 1 as <-. exists j, m, r, c, f. cbn. rewrite Em, (put_same _ _ _ _ Em). now repeat split.
Qed.

Lemma get_option_effect t x k t' : step a t (SGetOption x k) = Some t' ->
  exists q s v, holds t x (VSection q) /\ option_map sc_sect (section_at t q) = Some s /\ hasattr s k = true /\ option_at t q k = Some v /\
    st_var t' = st_var t ++ [if is_enum s k then VOption q k else VPlain v] /\ (forall q' k', option_at t' q' k' = option_at t q' k').
Proof.
  cbn [step]. unfold holds, option_at. destruct (nth_error (st_var t) x) as [[| |q| | | |]|] eqn:Ex; try discriminate.
  destruct (section_at t q) as [z|] eqn:Ez; [|discriminate]. destruct (hasattr (sc_sect z) k) eqn:Eh; [|discriminate]. injection 1 as <-.
  exists q, (sc_sect z), (sc_val z k). rewrite Ez. cbn. repeat split; auto.

Qed.
(** a saved option: a plain one keeps its value, whatever the program goes on to do *)
Lemma saved_plain t x k t' l s q v : step a t (SGetOption x k) = Some t' -> holds t x (VSection q) ->
  option_map sc_sect (section_at t q) = Some s -> is_enum s k = false -> option_at t q k = Some v ->
  exists w, holds (exec a t' l) (length (st_var t)) w /\ value_of (exec a t' l) w = Some v.
Proof.
  intros H Hx Hs He Hv. destruct (get_option_effect _ _ _ _ H) as (q' & s' & v' & Hx' & Hs' & _ & Hv' & Hvars & _).
  unfold holds in Hx, Hx'. assert (q' = q) by congruence. subst q'. assert (s' = s) by congruence. assert (v' = v) by congruence. subst. rewrite He in Hvars.
  exists (VPlain v). split; [|reflexivity]. apply exec_vars. unfold holds. rewrite Hvars. apply nth_app_last.
Qed.
(** an enumeration's is what the section holds at the time it is looked at *)
Lemma saved_enum t x k t' l s q : step a t (SGetOption x k) = Some t' -> holds t x (VSection q) ->
  option_map sc_sect (section_at t q) = Some s -> is_enum s k = true ->
  exists w, holds (exec a t' l) (length (st_var t)) w /\ value_of (exec a t' l) w = option_at (exec a t' l) q k.
Proof.
  intros H Hx Hs He. destruct (get_option_effect _ _ _ _ H) as (q' & s' & v' & Hx' & Hs' & _ & Hv' & Hvars & _).
  unfold holds in Hx, Hx'. assert (q' = q) by congruence. subst q'. assert (s' = s) by congruence. subst. rewrite He in Hvars.
  exists (VOption q k). split; [|reflexivity]. apply exec_vars. unfold holds. rewrite Hvars. apply nth_app_last.
Qed.
Lemma set_conf_field_effect t x y t' j : step a t (SSetConf x y) = Some t' -> holds t x (VResults j) ->
  exists p c r, holds t y (VConfiguration p) /\ conf_at t p = Some c /\ contents_of t (ORes j) = Some (CRes r) /\
    contents_of t' (ORes j) = Some (CRes (mkRes c (rs_field r))).
Proof.
  intros H Hx. cbn [step] in H. unfold holds in *. rewrite Hx in H. destruct (nth_error (st_var t) y) as [[|p| | | | |]|] eqn:Ey; try discriminate.
  destruct (conf_at t p) as [c|] eqn:Ec; [|discriminate]. cbn [set_conf] in H. destruct (nth_error (st_res t) j) as [r|] eqn:Er; [|discriminate].
  injection H as <-. exists p, c, r. cbn. rewrite Er, (put_same _ _ _ _ Er). now repeat split.
Qed.
Lemma set_field_effect t x k y t' j : step a t (SSetField x k y) = Some t' -> holds t x (VResults j) ->
  exists w v v' r r', holds t y w /\ value_of t w = Some v /\ convert_field a k v = Some v' /\
    contents_of t (ORes j) = Some (CRes r) /\ contents_of t' (ORes j) = Some (CRes r') /\
    rs_conf r' = rs_conf r /\ rs_field r' k = v' /\ (forall k', k' <> k -> rs_field r' k' = rs_field r k').
Proof.
  intros H Hx. cbn [step] in H. unfold holds in *. rewrite Hx in H. destruct (nth_error (st_var t) y) as [w|] eqn:Ey; [|discriminate].
  destruct (nth_error (st_res t) j) as [r|] eqn:Er; [|discriminate]. destruct (value_of t w) as [v|] eqn:Ev; [|discriminate].
  destruct (convert_field a k v) as [v'|] eqn:Ec; [|discriminate]. injection H as <-.
  exists w, v, v', r. eexists. cbn. rewrite Er, (put_same _ _ _ _ Er). split; [reflexivity|]. split; [exact Ev|]. split; [exact Ec|].
  split; [reflexivity|]. split; [reflexivity|]. cbn. rewrite String.eqb_refl. repeat split.
  intros k' N. destruct (String.eqb_spec k' k); [congruence|reflexivity].
Qed.
End Proofs2.
