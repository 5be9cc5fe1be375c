(** Consequences: FIFO order for one consumer, absence of deadlock, bounded work per operation, timed pops. *)
From Coq Require Import List Bool Arith Lia.
From Verif Require Import Queue QueueSpec QueueProofs QueueProofs2 QueueProofs3 QueueProofs4.
Import ListNotations.

Section P.
Context {V : Type}.
Notation qst := (qst V). Notation pc := (pc V). Notation ev := (ev V).

(** ** order *)
Definition pushes (ls : list (lin V)) : list V := flat_map (fun l => match l with LPush _ v => [v] | _ => [] end) ls.
Definition pops (ls : list (lin V)) : list V := flat_map (fun l => match l with LPop _ v => [v] | _ => [] end) ls.

Lemma fifo_order q ls q' : fifo (V:=V) q ls q' -> q ++ pushes ls = pops ls ++ q'.
Proof.
  induction 1; cbn in *; rewrite ?app_nil_r; auto.
  - rewrite <- app_assoc in IHfifo. exact IHfifo.
  - f_equal. exact IHfifo.
Qed.

Lemma pushed_effects (tr : list (nat * ev)) : pushed tr = pushes (effects tr).
Proof.
  unfold pushed, pushes, effects. induction tr as [|[t [o|l|r]] tr IH]; cbn; auto. destruct l; cbn; now rewrite IH.
Qed.

Definition pops_of (es : list ev) : list V := flat_map (fun e => match e with ELin _ (LPop _ v) => [v] | _ => [] end) es.
Definition vals_of (es : list ev) : list V := flat_map (fun e => match e with ERet _ (RVal _ v) => [v] | _ => [] end) es.

Lemma complete_vals (es : list ev) : complete es -> vals_of es = pops_of es.
Proof.
  induction 1 as [|es o l r _ IH A]; [reflexivity|]. unfold vals_of, pops_of in *. rewrite !flat_map_app, IH. f_equal. now destruct A.
Qed.
Lemma history_vals (es : list ev) : thread_history es -> prefix (vals_of es) (pops_of es).
Proof.
  intros [es' C|es' o C|es' o l r C A]; unfold prefix.
  - exists []. rewrite app_nil_r. symmetry. now apply complete_vals.
  - exists []. unfold vals_of, pops_of. rewrite !flat_map_app. cbn. rewrite !app_nil_r. symmetry. now apply complete_vals.
  - exists (pops_of [ELin V l]). pose proof (complete_vals _ C) as CV. unfold vals_of, pops_of in *. rewrite !flat_map_app, CV. cbn. now rewrite !app_nil_r.
Qed.
Lemma complete_push (es : list ev) : complete es -> (forall o, In (ECall V o) es -> exists v, o = OPush V v) -> pops_of es = [] /\ vals_of es = [].
Proof.
  induction 1 as [|es o l r C IH A]; [easy|]. intros H. unfold vals_of, pops_of in *. rewrite !flat_map_app.
  destruct IH as [-> ->]; [intros o' IN; apply H, in_or_app; now left|].
  destruct (H o) as [v ->]; [apply in_or_app; right; now left|]. inversion A; subst. easy.
Qed.
Lemma history_push (es : list ev) : thread_history es -> (forall o, In (ECall V o) es -> exists v, o = OPush V v) -> pops_of es = [] /\ vals_of es = [].
Proof.
  intros [es' C|es' o C|es' o l r C A] H.
  - now apply complete_push.
  - destruct (complete_push _ C) as [P Q]; [intros o' IN; apply H, in_or_app; now left|].
    unfold vals_of, pops_of in *. now rewrite !flat_map_app, P, Q.
  - destruct (complete_push _ C) as [P Q]; [intros o' IN; apply H, in_or_app; now left|].
    unfold vals_of, pops_of in *. rewrite !flat_map_app, P, Q. destruct (H o) as [v ->]; [apply in_or_app; right; now left|]. inversion A; subst. easy.
Qed.

Lemma in_of_thread t e (tr : list (nat * ev)) : In (t, e) tr <-> In e (of_thread t tr).
Proof.
  unfold of_thread. rewrite in_map_iff. split.
  - intros H. exists (t, e). split; [reflexivity|]. apply filter_In. split; [exact H|]. apply Nat.eqb_refl.
  - intros ([t' e'] & E & H). apply filter_In in H. destruct H as [H1 H2]. cbn in *. apply Nat.eqb_eq in H2. now subst.
Qed.

Lemma pops_all c (tr : list (nat * ev)) : (forall t, t <> c -> pops_of (of_thread t tr) = []) -> pops (effects tr) = pops_of (of_thread c tr).
Proof.
  intros H. assert (H' : forall t v, t <> c -> ~ In (t, ELin V (LPop V v)) tr).
  { intros t v N IN. apply in_of_thread in IN. specialize (H t N). assert (IV : In v (pops_of (of_thread t tr))).
    { unfold pops_of. apply in_flat_map. eexists. split; [exact IN|now left]. }
    rewrite H in IV. exact IV. }
  clear H. induction tr as [|[t e] tr IH]; [reflexivity|].
  specialize (IH ltac:(intros u v N IN; apply (H' u v N); now right)).
  change (effects ((t, e) :: tr)) with ((match e with ELin _ l => [l] | _ => [] end) ++ effects tr).
  unfold pops in *. rewrite flat_map_app, IH. unfold of_thread. cbn. destruct (Nat.eqb_spec t c) as [->|N]; cbn.
  - destruct e as [|[] |]; reflexivity.
  - destruct e as [|[] |]; cbn; auto. exfalso. eapply (H' t v N). now left.
Qed.
Lemma vals_all c (tr : list (nat * ev)) : (forall t, t <> c -> vals_of (of_thread t tr) = []) -> returned tr = vals_of (of_thread c tr).
Proof.
  intros H. assert (H' : forall t v, t <> c -> ~ In (t, ERet V (RVal V v)) tr).
  { intros t v N IN. apply in_of_thread in IN. specialize (H t N). assert (IV : In v (vals_of (of_thread t tr))).
    { unfold vals_of. apply in_flat_map. eexists. split; [exact IN|now left]. }
    rewrite H in IV. exact IV. }
  clear H. induction tr as [|[t e] tr IH]; [reflexivity|].
  specialize (IH ltac:(intros u v N IN; apply (H' u v N); now right)).
  unfold returned, of_thread in *. cbn. rewrite IH. destruct (Nat.eqb_spec t c) as [->|N]; cbn.
  - destruct e as [| |[]]; reflexivity.
  - destruct e as [| |[]]; cbn; auto. exfalso. eapply (H' t v N). now left.
Qed.

Lemma linearised_prefix c (tr : list (nat * ev)) q : linearised tr q -> only_consumer c tr -> prefix (returned tr) (pushed tr).
Proof.
  intros [F H] OC.
  assert (HO : forall t, t <> c -> pops_of (of_thread t tr) = [] /\ vals_of (of_thread t tr) = []).
  { intros t N. apply history_push; [apply H|]. intros o IN. apply in_of_thread in IN. eauto. }
  rewrite (vals_all c) by (intros t N; now apply HO).
  destruct (history_vals _ (H c)) as [r E]. rewrite pushed_effects. pose proof (fifo_order _ _ _ F) as O. cbn in O.
  rewrite (pops_all c) in O by (intros t N; now apply HO). rewrite O, E. exists (r ++ q). now rewrite app_assoc.
Qed.

(** ** timed pops *)
Lemma fifo_split q ls ls' q' : fifo (V:=V) q (ls ++ ls') q' -> exists q1, fifo q ls q1 /\ fifo q1 ls' q'.
Proof.
  revert q. induction ls as [|l ls IH]; cbn; intros q H; [exists q; split; [constructor|exact H]|].
  inversion H; subst; match goal with HH : fifo _ (ls ++ ls') _ |- _ => destruct (IH _ HH) as (q1 & A & B) end;
    exists q1; (split; [constructor; exact A|exact B]).
Qed.
Lemma fifo_fun q ls q1 q2 : fifo (V:=V) q ls q1 -> fifo q ls q2 -> q1 = q2.
Proof. intros H. revert q2. induction H; intros q2 H2; inversion H2; subst; auto. Qed.

Lemma fifo_first_own c tr v q q' l :
  fifo (v :: q) (effects tr) q' -> (forall t e, In (t, ELin V e) tr -> t <> c -> exists w, e = LPush V w) ->
  of_thread c tr = [ELin V l] -> l = LPop V v \/ l = LTest V false \/ exists w, l = LPush V w.
Proof.
  revert q. induction tr as [|[t e] tr IH]; intros q F OC E; [discriminate|].
  unfold of_thread in E. cbn in E. destruct (Nat.eqb_spec t c) as [->|N]; cbn in E.
  - injection E as E1 E2. subst e. cbn in F. inversion F; subst; eauto.
  - destruct e as [o|l0|r]; cbn in F.
    + eapply IH; eauto. intros; eapply OC; eauto. now right.
    + destruct (OC t l0) as [w ->]; [now left|exact N|]. inversion F; subst. eapply IH; eauto. intros; eapply OC; eauto. now right.
    + eapply IH; eauto. intros; eapply OC; eauto. now right.
Qed.

Lemma complete_last (es es' : list ev) e1 e2 e3 : complete es -> es = es' ++ [e1; e2; e3] ->
  exists o l r, e1 = ECall V o /\ e2 = ELin V l /\ e3 = ERet V r /\ agrees o l r.
Proof.
  intros C E. destruct C as [|es0 o l r C A]; [now destruct es'|].
  apply (f_equal (@rev _)) in E. rewrite !rev_app_distr in E. cbn in E. injection E as E3 E2 E1 _. subst. eauto 9.
Qed.
Lemma history_last (es es' : list ev) e1 e2 r : thread_history es -> es = es' ++ [e1; e2; ERet V r] ->
  exists o l, e1 = ECall V o /\ e2 = ELin V l /\ agrees o l r.
Proof.
  intros [es0 C|es0 o C|es0 o l r0 C A] E.
  - destruct (complete_last _ _ _ _ _ C E) as (o & l & r' & A1 & A2 & A3 & A4). injection A3 as <-. eauto 6.
  - apply (f_equal (@rev _)) in E. rewrite !rev_app_distr in E. cbn in E. discriminate.
  - apply (f_equal (@rev _)) in E. rewrite !rev_app_distr in E. cbn in E. discriminate.
Qed.

Lemma history_pusher_lin (es : list ev) : thread_history es -> (forall o, In (ECall V o) es -> exists v, o = OPush V v) ->
  forall l, In (ELin V l) es -> exists w, l = LPush V w.
Proof.
  assert (HC : forall es0 : list ev, complete es0 -> (forall o, In (ECall V o) es0 -> exists v, o = OPush V v) -> forall l, In (ELin V l) es0 -> exists w, l = LPush V w).
  { induction 1 as [|es0 o l r C IH A]; [easy|]. intros H l' IN. apply in_app_or in IN. destruct IN as [IN|IN].
    - apply IH; auto. intros o' IO. apply H, in_or_app. now left.
    - destruct (H o) as [v ->]; [apply in_or_app; right; now left|]. inversion A; subst.
      destruct IN as [IN|[IN|[IN|[]]]]; try discriminate. injection IN as <-. eauto. }
  intros [es' C|es' o C|es' o l r C A] H l' IN.
  - eapply HC; eauto.
  - apply in_app_or in IN. destruct IN as [IN|[IN|[]]]; [|discriminate]. eapply (HC _ C); eauto. intros o' IO. apply H, in_or_app. now left.
  - apply in_app_or in IN. destruct IN as [IN|IN].
    + eapply (HC _ C); eauto. intros o' IO. apply H, in_or_app. now left.
    + destruct (H o) as [v ->]; [apply in_or_app; right; now left|]. inversion A; subst.
      destruct IN as [IN|[IN|[]]]; try discriminate. injection IN as <-. eauto.
Qed.

Lemma timed_takes c tr1 tr2 r v q q' es l :
  linearised (V:=V) (tr1 ++ tr2 ++ [(c, ERet V r)]) q' -> only_consumer c (tr1 ++ tr2) ->
  of_thread c tr1 = es ++ [ECall V (OPopUntil V)] -> of_thread c tr2 = [ELin V l] ->
  fifo [] (effects tr1) (v :: q) -> r = RVal V v.
Proof.
  intros [F H] OC E1 E2 F1.
  rewrite !effects_app in F. cbn in F. rewrite app_nil_r in F.
  destruct (fifo_split _ _ _ _ F) as (q1 & FA & FB). rewrite (fifo_fun _ _ _ _ FA F1) in FB.
  assert (HO : forall t e, In (t, ELin V e) tr2 -> t <> c -> exists w, e = LPush V w).
  { intros t e IN N. apply (history_pusher_lin _ (H t)).
    - intros o IO. apply in_of_thread in IO. rewrite app_assoc in IO. apply in_app_or in IO. destruct IO as [IO|[IO|[]]]; [eauto|discriminate].
    - apply in_of_thread. apply in_or_app. right. apply in_or_app. now left. }
  pose proof (fifo_first_own c tr2 v q q' l FB HO E2) as HL.
  specialize (H c). rewrite !of_thread_app in H. rewrite E1, E2 in H. unfold of_thread in H. cbn in H. rewrite Nat.eqb_refl in H. cbn in H.
  rewrite <- app_assoc in H. cbn in H.
  destruct (history_last _ es _ _ r H eq_refl) as (o & l' & A1 & A2 & A3). injection A1 as <-. injection A2 as <-.
  destruct HL as [->|[->|[w ->]]]; now inversion A3.
Qed.

(** ** no deadlock *)
Lemma exec_reach sched s l : exec V (q_init V) sched = Some (l, Done V s) -> exists ns h, Inv s ns h l.
Proof. intros H. destruct (exec_inv _ _ _ _ _ _ _ inv_init H) as (s' & ns & h & E & I). injection E as <-. eauto. Qed.

Notation can_go := (can_move (V:=V)).

Lemma go_tail s ns h tr u : Inv s ns h tr -> in_tail (q_pc V s u) = true -> can_go s u.
Proof.
  intros I H. pose proof (i_thr _ _ _ _ I u) as T. destruct (i_tail _ _ _ _ I) as [n HN].
  exists (Go V). unfold step. destruct (q_pc V s u) eqn:E; try discriminate; cbn; rewrite ?HN; unfold ok; eexists; (split; [reflexivity|easy]).
Qed.
Lemma tm_free s ns h tr : Inv s ns h tr -> (exists u, can_go s u) \/ q_tm V s = None.
Proof.
  intros I. destruct (q_tm V s) as [u|] eqn:E; [left|now right]. exists u. apply (go_tail s ns h tr); [exact I|]. now apply (i_tm _ _ _ _ I).
Qed.
Lemma go_head s ns h tr u : Inv s ns h tr -> q_tm V s = None -> in_head (q_pc V s u) = true -> can_go s u.
Proof.
  intros I TM H. exists (Go V). unfold step. pose proof (i_thr _ _ _ _ I u) as T. destruct (q_pc V s u) eqn:E; try discriminate; cbn in T.
  - cbn. rewrite TM. cbn. unfold ok. eexists. split; [reflexivity|easy].
  - cbn. unfold ok. eexists. split; [reflexivity|easy].
  - cbn. unfold ok. eexists. split; [reflexivity|easy].
  - cbn. unfold after_test, ok. destruct k, f, (head_is V s tl); eexists; (split; [reflexivity|easy]).
  - assert (HH : q_head V s = Some h) by (apply (head_held s ns h tr u I); rewrite E; [reflexivity|discriminate]).
    cbn. rewrite HH. unfold ok. eexists. split; [reflexivity|easy].
  - destruct T as (_ & _ & T3 & T4). cbn. pose proof (i_chain _ _ _ _ I) as HC. destruct ns as [|[a v] ns]; [congruence|].
    cbn in *. subst a. destruct HC as (_ & b & HB & _). rewrite HB. unfold ok. eexists. split; [reflexivity|easy].
  - cbn. destruct r; unfold ok; eexists; (split; [reflexivity|easy]).
Qed.
Lemma hm_free s ns h tr : Inv s ns h tr -> q_tm V s = None -> (exists u, can_go s u) \/ q_hm V s = None.
Proof.
  intros I TM. destruct (q_hm V s) as [u|] eqn:E; [left|now right]. exists u. apply (go_head s ns h tr); [exact I|exact TM|]. now apply (i_hm _ _ _ _ I).
Qed.

Lemma not_stuck s ns h tr : Inv s ns h tr -> (forall u, ~ can_go s u) ->
  forall t, q_pc V s t = Idle V \/ q_pc V s t = CSleep V KWait.
Proof.
  intros I NG t. destruct (tm_free _ _ _ _ I) as [[u G]|TM]; [now elim (NG u)|]. destruct (hm_free _ _ _ _ I TM) as [[u G]|HM]; [now elim (NG u)|].
  pose proof (i_thr _ _ _ _ I t) as T. destruct (in_tail (q_pc V s t)) eqn:ET; [elim (NG t); now apply (go_tail s ns h tr)|].
  destruct (in_head (q_pc V s t)) eqn:EH; [elim (NG t); now apply (go_head s ns h tr)|].
  destruct (q_pc V s t) eqn:E; try discriminate; auto; cbn in T.
  - elim (NG t). exists (Go V). unfold step. rewrite E. cbn. rewrite TM. cbn. unfold ok. eexists. split; [reflexivity|easy].
  - elim (NG t). destruct (q_wait V s) as [|w ws] eqn:EW.
    + exists (Go V). unfold step. rewrite E. cbn. rewrite EW. unfold ok. eexists. split; [reflexivity|easy].
    + assert (SW : is_sleep (q_pc V s w) = true) by (apply (i_wait _ _ _ _ I); rewrite EW; now left).
      exists (Notify V w). unfold step. rewrite E. cbn. rewrite EW. cbn. rewrite Nat.eqb_refl. cbn.
      destruct (q_pc V s w); try discriminate. unfold ok. eexists. split; [reflexivity|easy].
  - elim (NG t). exists (Go V). unfold step. rewrite E. cbn. rewrite HM. cbn. unfold ok. eexists. split; [reflexivity|easy].
  - destruct k; [auto| |destruct T as [T _]; now elim T].
    elim (NG t). exists (Expire V). unfold step. rewrite E. cbn. unfold ok. eexists. split; [reflexivity|easy].
  - elim (NG t). exists (Go V). unfold step. rewrite E. cbn. rewrite HM. cbn. unfold ok. eexists. split; [reflexivity|easy].
  - destruct T as (v & x & k & _ & T & _). elim (NG t). exists (Go V). unfold step. rewrite E. cbn. rewrite T. unfold ok. eexists. split; [reflexivity|easy].
Qed.

(** ** bounded work: the number of steps a thread has left before it returns or sleeps *)
Definition rank (p : pc) : nat :=
  match p with
  | Idle _ => 0 | PLock _ _ _ => 6 | PData _ _ _ => 5 | PNext _ _ _ => 4 | PTail _ _ _ => 3 | PUnlock _ => 2 | PNotify _ => 1
  | CLock _ _ => 13
  | CTail _ KUntil PhFinal => 8 | CTail _ _ _ => 12
  | CRead _ KUntil PhFinal => 7 | CRead _ _ _ => 11
  | CRel _ KUntil PhFinal _ => 6 | CRel _ _ _ _ => 10
  | CCmp _ KUntil PhFinal _ => 5 | CCmp _ _ _ _ => 9
  | CSleep _ _ => 0
  | CRelock _ _ PhFinal => 13 | CRelock _ _ _ => 13
  | CPop1 _ _ => 4 | CPop2 _ _ _ => 3 | CUnl _ _ _ => 2 | CData _ _ => 1
  end.

Lemma rank_le p : rank p <= 13.
Proof. destruct p; cbn; try lia; destruct k; try lia; destruct f; lia. Qed.

Lemma step_rank s t c l s' : step V s t c = Some (l, Done V s') -> (match c with Go _ | Notify _ _ => True | _ => False end) ->
  c <> Notify V t -> rank (q_pc V s' t) < rank (q_pc V s t).
Proof.
  unfold step. destruct (q_pc V s t) as [| | | | | | | |k f|k f|k f tl|k f tl| | | | |k r|] eqn:E; destruct c; cbn; try discriminate; try easy; intros H _ N; unfold ok, fault in H;
    repeat match type of H with
    | context [is_none ?x] => destruct (is_none x); cbn in H; try discriminate
    | context [match q_heap V s ?x with _ => _ end] => destruct (q_heap V s x); cbn in H; try discriminate
    | context [match q_wait V s with _ => _ end] => destruct (q_wait V s); cbn in H; try discriminate
    | context [if existsb ?x ?y then _ else _] => destruct (existsb x y); cbn in H; try discriminate
    | context [match q_pc V s ?x with _ => _ end] => destruct (q_pc V s x); cbn in H; try discriminate
    | context [match q_head V s with _ => _ end] => destruct (q_head V s); cbn in H; try discriminate
    | context [match ?r with inl _ => _ | inr _ => _ end] => destruct r; cbn in H; try discriminate
    | context [match ?r with KWait => _ | KUntil => _ | KEmpty => _ end] => destruct r; cbn in H; try discriminate
    end; try (injection H as <- <-; cbn; rewrite ?upd_eq; cbn; try lia; repeat (match goal with k : ckind |- _ => destruct k | f : phase |- _ => destruct f end; cbn; try lia); fail).
  all: try (unfold after_test, ok in H; destruct k, f, (head_is V s tl); injection H as <- <-; cbn; rewrite ?upd_eq; cbn; lia).
Qed.

Lemma step_other s t u c l s' : step V s u c = Some (l, Done V s') -> u <> t -> c <> Notify V t -> q_pc V s' t = q_pc V s t.
Proof.
  unfold step. destruct (q_pc V s u) as [| | | | | | | |k f|k f|k f tl|k f tl| | | | |k r|] eqn:E; destruct c; cbn; try discriminate; intros H N N2; unfold ok, fault in H;
    repeat match type of H with
    | context [is_none ?x] => destruct (is_none x); cbn in H; try discriminate
    | context [match q_heap V s ?x with _ => _ end] => destruct (q_heap V s x); cbn in H; try discriminate
    | context [match q_wait V s with _ => _ end] => destruct (q_wait V s); cbn in H; try discriminate
    | context [if existsb ?x ?y then _ else _] => destruct (existsb x y); cbn in H; try discriminate
    | context [match q_pc V s ?x with _ => _ end] => destruct (q_pc V s x); cbn in H; try discriminate
    | context [match q_head V s with _ => _ end] => destruct (q_head V s); cbn in H; try discriminate
    | context [match ?r with inl _ => _ | inr _ => _ end] => destruct r; cbn in H; try discriminate
    | context [match ?r with KWait => _ | KUntil => _ | KEmpty => _ end] => destruct r; cbn in H; try discriminate
    end; try (injection H as <- <-; cbn; rewrite ?upd_neq by congruence; reflexivity).
  all: try (unfold after_test, ok in H; destruct k, f, (head_is V s tl); injection H as <- <-; cbn; rewrite ?upd_neq by congruence; reflexivity).
  destruct o; injection H as <- <-; cbn; rewrite ?upd_neq by congruence; reflexivity.
Qed.

Lemma bounded_work t sched : forall s l s', undisturbed t sched -> exec V s sched = Some (l, Done V s') ->
  steps_of t sched + rank (q_pc V s' t) <= rank (q_pc V s t).
Proof.
  induction sched as [|[u c] r IH]; cbn; intros s l s' U.
  - intros [= <- <-]. lia.
  - destruct (step V s u c) as [[l1 [s1|]]|] eqn:ES; try discriminate. destruct (exec V s1 r) as [[l2 o2]|] eqn:EE; [|discriminate].
    intros [= <- ->]. assert (U' : undisturbed t r) by (intros u' c' IN; apply U; now right).
    specialize (IH s1 l2 s' U' EE). destruct (U u c ltac:(now left)) as [N HC]. unfold steps_of in *. cbn. destruct (Nat.eqb_spec u t) as [->|NE]; cbn.
    + pose proof (step_rank _ _ _ _ _ ES (HC eq_refl) N). lia.
    + rewrite (step_other _ _ _ _ _ _ ES NE N) in IH. exact IH.
Qed.
End P.
