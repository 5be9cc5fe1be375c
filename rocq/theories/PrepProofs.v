From Coq Require Import List Bool Arith Lia Sorting.Sorted.
From Verif Require Import Perm PermSpec PermProofs Prep PrepSpec.
Import ListNotations.

Lemma qfind_qerase k m k' : qfind k' (qerase k m) = if k =? k' then None else qfind k' m.
Proof.
  unfold qerase. induction m as [|[i v] m IH]; cbn; [now destruct (k =? k')|]. destruct (Nat.eqb_spec i k) as [->|N]; cbn.
  - rewrite IH. now destruct (k =? k').
  - rewrite IH. destruct (Nat.eqb_spec k k') as [->|N']; auto. destruct (Nat.eqb_spec i k'); congruence.
Qed.
Lemma is_map_qerase k m : is_map m -> is_map (qerase k m).
Proof.
  induction m as [|[i v] m IH]; intros M; cbn; [exact M|]. apply is_map_cons in M as [M F].
  destruct (i =? k); cbn; [auto|]. apply is_map_cons. split; auto. apply Forall_forall. intros x X.
  rewrite Forall_forall in F. apply F. apply in_map_iff in X as (e & <- & E). apply filter_In in E as [E _]. now apply in_map.
Qed.
Lemma qkey_some v m p : is_map m -> qkey v m = Some p -> maps m p v.
Proof.
  intros M E. apply maps_in; auto. clear M. induction m as [|[i w] m IH]; cbn in *; [discriminate|].
  destruct (Nat.eqb_spec w v); [injection E as <-; subst; auto|right; auto].
Qed.
Lemma qkey_none v m : is_map m -> qkey v m = None -> ~ values m v.
Proof.
  intros M E V. apply values_in in V; auto. clear M. induction m as [|[i w] m IH]; cbn in *; [tauto|].
  destruct (Nat.eqb_spec w v); [discriminate|]. destruct V; auto.
Qed.
Lemma qkey_maps v m p : is_map m -> injective_map m -> maps m p v -> qkey v m = Some p.
Proof.
  intros M I H. destruct (qkey v m) as [p'|] eqn:E.
  - apply qkey_some in E; auto. f_equal. eapply I; eauto.
  - exfalso. eapply qkey_none; eauto. now exists p.
Qed.
Definition dec1 (l v : nat) : nat := if l <? v then v - 1 else v.
Definition skip (l i : nat) : nat := if i <? l then i else S i.
Lemma skip_dec1 l v : v <> l -> skip l (dec1 l v) = v.
Proof. intros N. unfold skip, dec1. destruct (Nat.ltb_spec l v); destruct (Nat.ltb_spec (if l <? v then v - 1 else v) l); destruct (Nat.ltb_spec l v); try lia; destruct (Nat.ltb_spec (v - 1) l); try lia; destruct (Nat.ltb_spec v l); lia. Qed.
Lemma dec1_skip l i : dec1 l (skip l i) = i.
Proof. unfold skip, dec1. destruct (Nat.ltb_spec i l); [destruct (Nat.ltb_spec l i); lia|destruct (Nat.ltb_spec l (S i)); lia]. Qed.
Lemma skip_inc l : increasing (skip l).
Proof. intros i j L. unfold skip. destruct (Nat.ltb_spec i l), (Nat.ltb_spec j l); lia. Qed.
Lemma skip_ne l i : skip l i <> l.
Proof. unfold skip. destruct (Nat.ltb_spec i l); lia. Qed.
Lemma inc_inj f : increasing f -> forall i j, f i = f j -> i = j.
Proof. intros F i j E. destruct (Nat.lt_trichotomy i j) as [L|[L|L]]; auto; apply F in L; lia. Qed.
Lemma qfind_dec l m k : qfind k (decAbove l m) = option_map (dec1 l) (qfind k m).
Proof. induction m as [|[i v] m IH]; cbn; auto. destruct (i =? k); auto. Qed.
Lemma is_map_dec l m : is_map m -> is_map (decAbove l m).
Proof. unfold is_map, decAbove. now rewrite map_map. Qed.
Lemma maxValue_spec m n : is_map m -> (forall v, values m v <-> v < n) -> 0 < n -> maxValue m = n - 1.
Proof.
  intros M V P. unfold maxValue.
  assert (G : forall (l : qmap) a, (forall e, In e l -> snd e <= n - 1) -> a <= n - 1 -> (a = n - 1 \/ exists e, In e l /\ snd e = n - 1) ->
    fold_left (fun acc e => Nat.max acc (snd e)) l a = n - 1).
  { induction l as [|e l IH]; intros a B La X; cbn; [destruct X as [X|(e & [] & _)]; lia|]. apply IH.
    - intros; apply B; now right.
    - specialize (B e (or_introl eq_refl)). lia.
    - specialize (B e (or_introl eq_refl)). destruct X as [X|(e' & [<-|I] & X)]; [left; lia|left; lia|right; eauto]. }
  apply G; [|lia|].
  - intros [k v] I. cbn. assert (v < n) by (apply V; apply values_in; auto; now apply (in_map snd) in I). lia.
  - right. assert (X : values m (n - 1)) by (apply V; lia). apply values_in in X; auto. apply in_map_iff in X as ([k v] & E & I). exists (k, v). auto.
Qed.

Section Prep.
Context {A : Type} (actsOn : A -> nat -> bool).
Notation circ := (circ A).
Notation wf := (@wf_circ A).
Notation idle := (@idle A actsOn).
Notation shrunk := (@shrunk A actsOn).

Lemma isIdle_iff (c : circ) p : isIdle actsOn c p = true <-> idle c p.
Proof.
  unfold isIdle, PrepSpec.idle. rewrite negb_true_iff. split.
  - intros E o I. destruct (actsOn o p) eqn:X; auto. exfalso. assert (existsb (fun o => actsOn o p) (q_ops c) = true) by (apply existsb_exists; eauto). congruence.
  - intros H. destruct (existsb _ _) eqn:X; auto. apply existsb_exists in X as (o & I & E). specialize (H o I). congruence.
Qed.
Lemma safe_iff (c : circ) p l : wf c -> safeToRemove c p l = true <-> undisturbed c p l.
Proof.
  intros (_ & _ & _ & MO & _). unfold safeToRemove, undisturbed, maps, keys.
  assert (X : existsb (fun e => snd e =? l) (q_out c) = true <-> values (q_out c) l).
  { rewrite values_in by auto. rewrite existsb_exists. split.
    - intros ([k v] & I & E). apply Nat.eqb_eq in E. cbn in E. subst. now apply (in_map snd) in I.
    - intros I. apply in_map_iff in I as ([k v] & E & I). exists (k, v). split; auto. now apply Nat.eqb_eq. }
  unfold maps in *. rewrite orb_true_iff, andb_true_iff, !negb_true_iff. split.
  - intros [[H1 H2]|H]; [right|left].
    + split; [|intros V; apply X in V; congruence]. intros (v & E). now rewrite E in H1.
    + destruct (qfind p (q_out c)) as [v|]; [|discriminate]. apply Nat.eqb_eq in H. now subst.
  - intros [H|[H1 H2]]; [right|left].
    + rewrite H. apply Nat.eqb_refl.
    + split; [|destruct (existsb _ _) eqn:Y; auto; exfalso; now apply H2, X].
      destruct (qfind p (q_out c)) as [v|] eqn:E; auto. exfalso. apply H1. eauto.
Qed.

Definition removed (c : circ) (p l : nat) : circ :=
  mkCirc (q_ops c) (q_n c - 1) (qerase p (q_lay c)) (qerase p (q_out c)) (shift (q_n c) l (q_anc c)) (shift (q_n c) l (q_gar c)).
Lemma removeQubit_eq (c : circ) p l : wf c -> maps (q_lay c) p l -> removeQubit c l = Some (removed c p l, (p, qfind p (q_out c))).
Proof. intros (ML & IL & _) H. unfold removeQubit. now rewrite (qkey_maps l (q_lay c) p ML IL H). Qed.

Lemma cut_lay (c : circ) p l p' : maps (q_lay c) p l -> wf c -> forall v, maps (q_lay (decBoth l (removed c p l))) p' v <-> p' <> p /\ maps (q_lay c) p' (skip l v).
Proof.
  intros H (ML & IL & _) v. unfold maps in *. change (q_lay (decBoth l (removed c p l))) with (decAbove l (qerase p (q_lay c))). rewrite qfind_dec, qfind_qerase. destruct (Nat.eqb_spec p p') as [->|N]; cbn.
  - split; [discriminate|]. intros [X _]; congruence.
  - destruct (qfind p' (q_lay c)) as [w|] eqn:E; cbn; [|split; [discriminate|intros [_ X]; discriminate]].
    assert (w <> l). { intros ->. apply N. eapply IL; eauto. }
    split.
    + intros X. injection X as <-. rewrite skip_dec1; auto.
    + intros [_ X]. injection X as ->. now rewrite dec1_skip.
Qed.
Lemma cut_out (c : circ) p l p' : maps (q_lay c) p l -> undisturbed c p l -> wf c ->
  forall v, maps (q_out (decBoth l (removed c p l))) p' v <-> p' <> p /\ maps (q_out c) p' (skip l v).
Proof.
  intros H U (_ & _ & _ & MO & IO & _) v. unfold maps in *. change (q_out (decBoth l (removed c p l))) with (decAbove l (qerase p (q_out c))). rewrite qfind_dec, qfind_qerase. destruct (Nat.eqb_spec p p') as [->|N]; cbn.
  - split; [discriminate|]. intros [X _]; congruence.
  - destruct (qfind p' (q_out c)) as [w|] eqn:E; cbn; [|split; [discriminate|intros [_ X]; discriminate]].
    assert (w <> l). { intros ->. destruct U as [U|[_ U]]; [apply N; eapply IO; eauto|apply U; now exists p']. }
    split.
    + intros X. injection X as <-. rewrite skip_dec1; auto.
    + intros [_ X]. injection X as ->. now rewrite dec1_skip.
Qed.

Lemma cut_spec (c : circ) p l : wf c -> maps (q_lay c) p l -> idle c p -> undisturbed c p l ->
  let c' := decBoth l (removed c p l) in wf c' /\ shrunk (skip l) c c' /\ q_n c' = q_n c - 1 /\ l < q_n c.
Proof.
  intros W H Id U c'. pose proof (fun p' => cut_lay c p l p' H W) as CL. pose proof (fun p' => cut_out c p l p' H U W) as CO. fold c' in CL, CO.
  pose proof W as (ML & IL & VL & MO & IO & VO & KO).
  assert (Ll : l < q_n c) by (apply VL; now exists p).
  assert (N' : q_n c' = q_n c - 1) by reflexivity.
  repeat split; auto.
  - apply is_map_dec, is_map_qerase, ML.
  - intros k k' v A1 A2. apply CL in A1 as [_ A1], A2 as [_ A2]. eapply IL; eauto.
  - intros (k & K). apply CL in K as [_ K]. rewrite N'. assert (skip l v < q_n c) by (apply VL; now exists k).
    unfold skip in *. destruct (Nat.ltb_spec v l); lia.
  - rewrite N'. intros Lv. assert (X : values (q_lay c) (skip l v)). { apply VL. unfold skip. destruct (Nat.ltb_spec v l); lia. }
    destruct X as (k & K). exists k. apply CL. split; auto. intros ->. unfold maps in *. rewrite H in K. injection K as K. now apply (skip_ne l v).
  - apply is_map_dec, is_map_qerase, MO.
  - intros k k' v A1 A2. apply CO in A1 as [_ A1], A2 as [_ A2]. eapply IO; eauto.
  - intros v (k & K). apply CO in K as [_ K]. rewrite N'. assert (skip l v < q_n c) by (apply VO; now exists k).
    unfold skip in *. destruct (Nat.ltb_spec v l); lia.
  - intros k (v & K). apply CO in K as [N K]. destruct (KO k) as (w & Kw); [now exists (skip l v)|].
    assert (w <> l). { intros ->. apply N. eapply IL; eauto. }
    exists (dec1 l w). apply CL. split; auto. now rewrite skip_dec1.
  - intros q v K. now apply CL in K as [_ K].
  - intros k (v & K). apply CL in K as [N _].
    destruct (qfind k (q_out c')) as [w|] eqn:E.
    + apply CO in E as [_ E]. exact E.
    + destruct (qfind k (q_out c)) as [w|] eqn:E'; auto. exfalso.
      assert (X : qfind k (q_out c') = option_map (dec1 l) (qfind k (q_out c))).
      { change (q_out c') with (decAbove l (qerase p (q_out c))). rewrite qfind_dec, qfind_qerase. destruct (Nat.eqb_spec p k); congruence. }
      rewrite E, E' in X. discriminate.
  - rename p0 into k, l0 into w, H0 into K, H1 into Nk. assert (k = p) as ->; auto.
    destruct (Nat.eq_dec k p); auto. exfalso. apply Nk. exists (dec1 l w). apply CL. split; auto. rewrite skip_dec1; auto. intros ->. apply n. eapply IL; eauto.
  - rename p0 into k, l0 into w, H0 into K, H1 into Nk. assert (k = p) as ->.
    { destruct (Nat.eq_dec k p); auto. exfalso. apply Nk. exists (dec1 l w). apply CL. split; auto. rewrite skip_dec1; auto. intros ->. apply n. eapply IL; eauto. }
    unfold maps in *. rewrite H in K. injection K as <-. exact U.
  - rewrite N' in H0. unfold skip. destruct (Nat.ltb_spec q l); lia.
  - cbn. unfold shift, skip. rewrite N' in H0. destruct (Nat.ltb_spec q l); auto. destruct (Nat.ltb_spec (S q) (q_n c)); auto; lia.
  - cbn. unfold shift, skip. rewrite N' in H0. destruct (Nat.ltb_spec q l); auto. destruct (Nat.ltb_spec (S q) (q_n c)); auto; lia.
Qed.

Lemma keys_dec (m : qmap) p : {keys m p} + {~ keys m p}.
Proof. unfold keys, maps. destruct (qfind p m) as [v|]; [left; eauto|right; intros (v & E); discriminate]. Qed.
Lemma maps_fun (m : qmap) p v w : maps m p v -> maps m p w -> v = w.
Proof. unfold maps. congruence. Qed.

(* what is undisturbed after the removal was so before *)
Lemma shrunk_undisturbed f (c c' : circ) p q : increasing f -> wf c -> shrunk f c c' -> maps (q_lay c') p q -> undisturbed c' p q -> undisturbed c p (f q).
Proof.
  intros F (ML & IL & VL & MO & IO & VO & KO) (Ho & HL & HO & HR & _) M U. pose proof (HO p (ex_intro _ q M)) as E.
  destruct U as [U|[U1 U2]].
  - left. unfold maps in *. now rewrite E, U.
  - right. unfold keys, values, maps in *. split.
    + intros (v & X). apply U1. rewrite X in E. destruct (qfind p (q_out c')); [eauto|discriminate].
    + intros (p2 & X). destruct (keys_dec (q_lay c') p2) as [K|K].
      * rewrite (HO p2 K) in X. destruct (qfind p2 (q_out c')) as [q'|] eqn:Y; [|discriminate]. injection X as X.
        apply U2. exists p2. rewrite Y. f_equal. eapply inc_inj; eauto.
      * destruct (KO p2) as (l2 & L2); [now exists (f q)|]. destruct (HR p2 l2 L2 K) as [_ [Z|[Z _]]].
        -- assert (l2 = f q) as -> by (eapply maps_fun; eauto). apply K. exists q. assert (p2 = p) as -> by (eapply IL; eauto; now apply HL). exact M.
        -- apply Z. now exists (f q).
Qed.
Lemma shrunk_idle f (c c' : circ) p : shrunk f c c' -> idle c' p -> idle c p.
Proof. intros (Ho & _) I o. rewrite <- Ho. apply I. Qed.
Lemma shrunk_refl (c : circ) : shrunk (fun i => i) c c.
Proof.
  repeat split; auto; try (intros; exfalso; match goal with H : ~ keys _ _ |- _ => apply H; eexists; eauto end).
  intros p _. now destruct (qfind p (q_out c)).
Qed.
Lemma shrunk_trans f g (c c' c'' : circ) : increasing f -> wf c -> shrunk f c c' -> shrunk g c' c'' -> shrunk (fun i => f (g i)) c c''.
Proof.
  intros F W H1 H2. pose proof H1 as (Ho & HL & HO & HR & HF). pose proof H2 as (Ho' & HL' & HO' & HR' & HF').
  split; [congruence|]. split; [intros p q M; apply HL, HL', M|]. split; [|split].
  - intros p K. rewrite (HO p), (HO' p K); [now destruct (qfind p (q_out c''))|]. destruct K as (q & M). exists (g q). now apply HL'.
  - intros p l M K. destruct (keys_dec (q_lay c') p) as [(q & K')|K']; [|now apply HR].
    assert (l = f q) as -> by (eapply maps_fun; eauto). destruct (HR' p q K' K) as [I U]. split; [eapply shrunk_idle; eauto|].
    eapply shrunk_undisturbed; eauto.
  - intros q L. destruct (HF' q L) as (X & -> & ->). now destruct (HF (g q) X) as (Y & -> & ->).
Qed.
Lemma shrunk_ext f g (c c' : circ) : wf c' -> (forall i, i < q_n c' -> f i = g i) -> shrunk f c c' -> shrunk g c c'.
Proof.
  intros (ML & IL & VL & MO & IO & VO & KO) E (Ho & HL & HO & HR & HF). split; [auto|]. split; [|split; [|split; [auto|]]].
  - intros p q M. rewrite <- E; [now apply HL|]. apply VL. now exists p.
  - intros p K. rewrite (HO p K). destruct (qfind p (q_out c')) as [v|] eqn:X; auto. cbn. rewrite E; auto. apply VO. now exists p.
  - intros q L. rewrite <- E by auto. now apply HF.
Qed.
Lemma skip_below l i n : n <= l -> i < n -> skip l i = i.
Proof. intros. unfold skip. destruct (Nat.ltb_spec i l); lia. Qed.
Lemma inc_comp f g : increasing f -> increasing g -> increasing (fun i => f (g i)).
Proof. intros F G i j L. auto. Qed.

Lemma wf_lt (c : circ) p l : wf c -> maps (q_lay c) p l -> l < q_n c.
Proof. intros (_ & _ & V & _) M. apply V. now exists p. Qed.
Lemma wf_val (c : circ) l : wf c -> l < q_n c -> exists p, maps (q_lay c) p l.
Proof. intros (_ & _ & V & _) M. now apply V. Qed.

(* loop invariant: [seen p] holds for the physical qubits already visited *)
Definition inv (L0 S0 : circ) (seen : nat -> Prop) (st : circ * circ * nat) : Prop :=
  let '(L, Sm, diff) := st in
  wf L /\ wf Sm /\ q_n L = q_n Sm + diff /\
  (exists f, increasing f /\ shrunk f L0 L /\ shrunk f S0 Sm /\ forall q, q_n Sm <= q -> q_n S0 <= f q) /\
  (forall p l, seen p -> maps (q_lay L) p l -> idle L p -> undisturbed L p l -> exists pS, maps (q_lay Sm) pS l /\ ~ (idle Sm pS /\ undisturbed Sm pS l)) /\
  (forall p, keys (q_lay L0) p -> ~ seen p -> keys (q_lay L) p).

Lemma inv_stay L0 S0 seen L Sm diff p : inv L0 S0 seen (L, Sm, diff) ->
  (forall l, maps (q_lay L) p l -> idle L p -> undisturbed L p l -> exists pS, maps (q_lay Sm) pS l /\ ~ (idle Sm pS /\ undisturbed Sm pS l)) ->
  inv L0 S0 (fun x => seen x \/ x = p) (L, Sm, diff).
Proof.
  intros (WL & WS & En & F & C & K) H. split; [auto|]. split; [auto|]. split; [auto|]. split; [auto|]. split.
  - intros p' l [Sn|E] M I U; [eapply C; eauto|subst; eauto].
  - intros p' K' N. apply K; auto.
Qed.
Lemma lay_cut (c : circ) p l p' : maps (q_lay c) p l -> wf c -> keys (q_lay c) p' -> p' <> p -> keys (q_lay (decBoth l (removed c p l))) p'.
Proof.
  intros M W (v & V) N. exists (dec1 l v). apply cut_lay; auto. split; auto. rewrite skip_dec1; auto. intros ->. apply N. destruct W as (_ & IL & _). eapply IL; eauto.
Qed.
Lemma step_inv nd L0 S0 seen st p : wf L0 -> wf S0 -> inv L0 S0 seen st -> keys (q_lay L0) p -> ~ seen p ->
  exists st', strip_step actsOn nd st p = PVal st' /\ inv L0 S0 (fun x => seen x \/ x = p) st'.
Proof.
  intros W0 WS0. destruct st as [[L Sm] diff]. intros I Kp Np. pose proof I as (WL & WS & En & (f & F & FL & FS & FT) & C & K).
  unfold strip_step. destruct (isIdle actsOn L p) eqn:Id; cbn [negb].
  2:{ eexists; split; [reflexivity|]. apply inv_stay; auto. intros l _ X. apply isIdle_iff in X. congruence. }
  apply isIdle_iff in Id. destruct (K p Kp Np) as (l & Ml). unfold maps in Ml. rewrite Ml.
  assert (Ll : l < q_n L) by (eapply wf_lt; eauto).
  assert (Ext : (0 <? diff) && ((q_n Sm =? 0) || (maxValue (q_lay Sm) <? l)) = (q_n Sm <=? l)).
  { destruct (Nat.eqb_spec (q_n Sm) 0) as [E|E]; cbn [orb].
    - rewrite E. destruct diff; [lia|reflexivity].
    - rewrite (maxValue_spec (q_lay Sm) (q_n Sm)); [|apply WS|apply (proj1 (proj2 (proj2 WS)))|lia].
      destruct (Nat.ltb_spec 0 diff), (Nat.ltb_spec (q_n Sm - 1) l), (Nat.leb_spec (q_n Sm) l); cbn [andb]; auto; lia. }
  rewrite Ext. destruct (Nat.leb_spec (q_n Sm) l) as [G|G].
  - destruct (safeToRemove L p l) eqn:Sf; cbn [negb].
    + apply safe_iff in Sf; auto. rewrite (removeQubit_eq L p l) by auto. eexists; split; [reflexivity|].
      destruct (cut_spec L p l WL Ml Id Sf) as (W' & Sh & N' & _). cbn zeta in *. set (L' := decBoth l (removed L p l)) in *.
      split; [exact W'|]. split; [exact WS|]. split; [lia|]. split; [|split].
      * exists (fun i => f (skip l i)). split; [apply inc_comp; auto; apply skip_inc|]. split.
        -- eapply shrunk_trans; eauto.
        -- split; [|intros i Li; apply FT; unfold skip; destruct (i <? l); lia].
           eapply shrunk_ext; [auto| |exact FS]. intros i Li. cbn. now rewrite (skip_below l i (q_n Sm)).
      * intros p' v Sn M I' U'. assert (M' := M). apply cut_lay in M' as [Npp M']; auto.
        assert (Sn' : seen p') by (destruct Sn; congruence).
        destruct (C p' (skip l v) Sn' M') as (pS & X & Y).
        -- eapply shrunk_idle; eauto.
        -- eapply shrunk_undisturbed; eauto using skip_inc.
        -- assert (skip l v < q_n Sm) by (eapply wf_lt; eauto).
           assert (v < q_n Sm) by (unfold skip in *; destruct (Nat.ltb_spec v l); lia).
           rewrite (skip_below l v (q_n Sm)) in X, Y by auto. eauto.
      * intros p' K' N2. apply lay_cut; auto.
    + eexists; split; [reflexivity|]. apply inv_stay; auto. intros l' M' _ U. assert (l' = l) as -> by (eapply maps_fun; eauto).
      apply safe_iff in U; auto. congruence.
  - destruct (wf_val Sm l WS G) as (pS & MS).
    assert (E2 : qkey l (q_lay Sm) = Some pS) by (apply qkey_maps; auto; apply WS). rewrite E2.
    assert (Stay : (idle Sm pS /\ undisturbed L p l /\ undisturbed Sm pS l -> False) -> exists st', @PVal (circ * circ * nat) (L, Sm, diff) = PVal st' /\ inv L0 S0 (fun x => seen x \/ x = p) st').
    { intros X. eexists; split; [reflexivity|]. apply inv_stay; auto. intros l' M' _ U. assert (l' = l) as -> by (eapply maps_fun; eauto).
      exists pS. split; auto. intros [A1 A2]. auto. }
    destruct (isIdle actsOn Sm pS) eqn:IdS; cbn [negb].
    2:{ apply Stay. intros (X & _). apply isIdle_iff in X. congruence. }
    destruct (safeToRemove L p l) eqn:Sf; cbn [negb].
    2:{ apply Stay. intros (_ & X & _). apply safe_iff in X; auto. congruence. }
    destruct (safeToRemove Sm pS l) eqn:SfS; cbn [negb].
    2:{ apply Stay. intros (_ & _ & X). apply safe_iff in X; auto. congruence. }
    clear Stay. apply safe_iff in Sf, SfS; auto. apply isIdle_iff in IdS. rewrite (removeQubit_eq L p l), (removeQubit_eq Sm pS l) by auto.
    eexists; split; [reflexivity|].
    destruct (cut_spec L p l WL Ml Id Sf) as (W' & Sh & N' & _). destruct (cut_spec Sm pS l WS MS IdS SfS) as (WS' & ShS & NS' & _).
    cbn zeta in *. set (L' := decBoth l (removed L p l)) in *. set (S' := decBoth l (removed Sm pS l)) in *.
    split; [exact W'|]. split; [exact WS'|]. split; [lia|]. split; [|split].
    + exists (fun i => f (skip l i)). split; [apply inc_comp; auto; apply skip_inc|]. split; [eapply shrunk_trans; eauto|]. split; [eapply shrunk_trans; eauto|].
      intros i Li. apply FT. unfold skip. destruct (Nat.ltb_spec i l); lia.
    + intros p' v Sn M I' U'. assert (M' := M). apply cut_lay in M' as [Npp M']; auto.
      assert (Sn' : seen p') by (destruct Sn; congruence).
      destruct (C p' (skip l v) Sn' M') as (pS' & X & Y).
      * eapply shrunk_idle; eauto.
      * eapply shrunk_undisturbed; eauto using skip_inc.
      * assert (Xn : pS' <> pS). { intros ->. apply (skip_ne l v). eapply maps_fun; eauto. }
        assert (X' : maps (q_lay S') pS' v) by (apply cut_lay; auto).
        exists pS'. split; auto. intros [Y1 Y2]. apply Y. split; [eapply shrunk_idle; eauto|]. eapply shrunk_undisturbed; eauto using skip_inc.
    + intros p' K' N2. apply lay_cut; auto.
Qed.

Lemma loop_inv nd L0 S0 ps : wf L0 -> wf S0 -> NoDup ps -> (forall p, In p ps -> keys (q_lay L0) p) -> forall seen st, inv L0 S0 seen st ->
  (forall p, In p ps -> ~ seen p) -> exists st', strip_loop actsOn nd ps st = PVal st' /\ inv L0 S0 (fun x => seen x \/ In x ps) st'.
Proof.
  intros W WS. unfold strip_loop. induction ps as [|p ps IH]; intros ND K seen st I N; cbn [fold_left].
  - exists st. split; auto. destruct st as [[L Sm] d]. destruct I as (A1 & A2 & A3 & A4 & A5 & A6). do 4 (split; [auto|]). split.
    + intros p l [X|[]]. now apply A5.
    + intros p Kp X. apply A6; auto.
  - cbn [pbind]. destruct (step_inv nd L0 S0 seen st p W WS I (K p (or_introl eq_refl)) (N p (or_introl eq_refl))) as (st1 & -> & I1).
    apply NoDup_cons_iff in ND as [Nin ND]. destruct (IH ND (fun x X => K x (or_intror X)) _ _ I1) as (st' & E & I').
    + intros x X [Y| ->]; [apply (N x); auto; now right|auto].
    + exists st'. split; auto. destruct st' as [[L Sm] d]. destruct I' as (A1 & A2 & A3 & A4 & A5 & A6). do 4 (split; [auto|]). split.
      * intros x l X. apply A5. cbn in X. destruct X as [X|[X|X]]; auto.
      * intros x Kx X. apply A6; auto. intros Y. apply X. cbn. destruct Y as [[Y|Y]|Y]; auto.
Qed.
Lemma is_map_nodup m : is_map m -> NoDup (map fst m).
Proof.
  unfold is_map. generalize (map fst m). induction l as [|x l IH]; intros H; constructor; apply StronglySorted_inv in H as [H F]; auto.
  intros X. rewrite Forall_forall in F. apply F in X. lia.
Qed.
Lemma strip_main nd L Sm : wf L -> wf Sm -> q_n Sm <= q_n L ->
  exists L' S' f, strip actsOn nd L Sm = PVal (L', S') /\ wf L' /\ wf S' /\ increasing f /\ shrunk f L L' /\ shrunk f Sm S' /\
    nothing_left actsOn L' S' /\ q_n S' <= q_n L' /\ (forall q, q_n S' <= q -> q_n Sm <= f q).
Proof.
  intros WL WS Ge. pose proof WL as (ML & _).
  assert (Kin : forall p, In p (rev (map fst (q_lay L))) <-> keys (q_lay L) p).
  { intros p. rewrite <- in_rev. split.
    - intros X. apply in_map_iff in X as ([k v] & <- & X). exists v. now apply maps_in.
    - intros (v & X). apply maps_in in X; auto. now apply (in_map fst) in X. }
  destruct (loop_inv nd L Sm (rev (map fst (q_lay L))) WL WS (NoDup_rev (is_map_nodup _ ML)) (fun p => proj1 (Kin p)) (fun _ => False) (L, Sm, q_n L - q_n Sm)) as ([[L' S'] d] & E & I).
  - split; [auto|]. split; [auto|]. split; [lia|]. split; [|tauto]. exists (fun i => i). split; [now intros i j|]. split; [apply shrunk_refl|]. split; [apply shrunk_refl|auto].
  - tauto.
  - destruct I as (A1 & A2 & A3 & (f & F & FL & FS & FT) & A5 & A6). exists L', S', f. unfold strip. rewrite E. cbn [pbind fst].
    split; [reflexivity|]. do 5 (split; [auto|]). split; [|split; [|exact FT]].
    + intros p l M I U. eapply A5; eauto. right. apply Kin. exists (f l). now apply FL.
    + lia.
Qed.
End Prep.
