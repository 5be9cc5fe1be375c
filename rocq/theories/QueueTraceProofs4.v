(** Executions of the queue are free of data races; what is pushed is published. *)
From Coq Require Import List Bool Arith Lia.
From Verif Require Import Queue QueueSpec QueueProofs QueueProofs2 QueueProofs3 QueueProofs4 QueueProofs5 Trace TraceProofs QueueTrace QueueTraceProofs QueueTraceProofs2 QueueTraceProofs3.
Import ListNotations.

Lemma seq_snoc n : seq 0 (S n) = seq 0 n ++ [n].
Proof. rewrite seq_S. reflexivity. Qed.
Lemma prefix_snoc n : q_prefix (S n) = q_prefix n ++ [(0, Fork (S n))].
Proof. unfold q_prefix. rewrite seq_snoc, map_app, app_assoc. reflexivity. Qed.
Lemma prefix_zero n : forall ev, In ev (q_prefix n) -> fst ev = 0.
Proof.
  intros ev H. unfold q_prefix in H. apply in_app_or in H. destruct H as [H|H].
  - cbn in H. repeat (destruct H as [<-|H]; [reflexivity|]). destruct H.
  - apply in_map_iff in H. destruct H as (k & <- & _). reflexivity.
Qed.
Lemma prefix_free n : race_free (q_prefix n).
Proof.
  intros l i j (_ & t & u & a & b & H1 & H2 & HN & _). apply HN. apply nth_error_In, prefix_zero in H1. apply nth_error_In, prefix_zero in H2. cbn in *. congruence.
Qed.
Lemma prefix_known n : forall t p, t <= n -> p < 5 -> known (clk (q_prefix n)) t p = true.
Proof.
  induction n as [|n IH]; intros t p Ht Hp.
  - assert (t = 0) as -> by lia. do 5 (destruct p as [|p]; [reflexivity|]). lia.
  - rewrite prefix_snoc, clk_snoc. revert IH. generalize (clk (q_prefix n)). intros ck IH. cbn [ck_step known]. destruct (Nat.eqb_spec t 0) as [->|H0].
    + rewrite (IH 0 p) by lia. reflexivity.
    + destruct (Nat.le_gt_cases t n) as [Hl|Hl]; [rewrite (IH t p) by lia; reflexivity|]. assert (t = S n) as -> by lia.
      rewrite (Nat.eqb_refl (S n)), (IH 0 p) by lia. cbn [orb andb]. apply orb_true_r.
Qed.
Lemma prefix_len n : 5 <= length (q_prefix n).
Proof. unfold q_prefix. rewrite app_length. cbn. lia. Qed.
Lemma prefix_acc n p t a l : 5 <= p -> nth_error (q_prefix n) p <> Some (t, Acc a l).
Proof.
  intros Hp E. unfold q_prefix in E. rewrite nth_error_app2 in E by (cbn; lia). apply nth_error_In, in_map_iff in E. destruct E as (k & E & _). discriminate.
Qed.

Lemma hb_dec {L} (tr : trace L) i j t w : nth_error tr j = Some (t, w) -> i <> j -> hb tr i j \/ ~ hb tr i j.
Proof.
  intros E HN. destruct (known (clk (firstn (S j) tr)) t i) eqn:K.
  - left. apply hb_iff. split; [exact HN|]. exists t, w. auto.
  - right. intros H. apply hb_iff in H. destruct H as (_ & t' & w' & E' & K'). congruence.
Qed.

Section P.
Context {V : Type}.
Notation qst := (qst V).
Notation JJ B n tr s := (J B n tr (qown s) (qguard s)).

Lemma init_J n : J 5 n (q_prefix n) (qown (q_init V)) (qguard (q_init V)).
Proof.
  constructor; [apply prefix_free|apply prefix_len|apply prefix_known|]. intros l g p t a _ Hp E. exfalso. exact (prefix_acc n p t a l Hp E).
Qed.

Lemma fresh_grows (s s' : qst) t c l : step V s t c = Some (l, Done V s') -> q_fresh V s <= q_fresh V s'.
Proof.
  unfold step. intros H. destruct (q_pc V s t) eqn:EP.
  1:{ destruct c as [|o|w| |]; try discriminate. destruct o; injection H as _ <-; cbn; lia. }
  all: destruct (step_push V s t _ c) as [r'|] eqn:ES.
  all: try (injection H as ->); cbn [step_push step_cons] in *; destruct c as [|o|w| |]; try discriminate.
  all: repeat match goal with
    | H : match ?x with _ => _ end = Some _ |- _ => destruct x eqn:?; try discriminate
    | H : (if ?x then _ else _) = Some _ |- _ => destruct x eqn:?; try discriminate
    | H : after_test _ _ _ ?k ?f ?e = Some _ |- _ => destruct k, f, e; cbn [after_test] in H
    | H : ok _ _ _ = Some _ |- _ => injection H as _ <-
    | H : Some _ = Some _ |- _ => injection H as _ <-
    end; cbn; auto.
Qed.
Lemma acc_young (s s' : qst) ns h tr0 t c l : Inv s ns h tr0 -> step V s t c = Some (l, Done V s') ->
  forall a x lo, In (Acc a lo) (q_accesses V s t c) -> node_of lo = Some x -> x < q_fresh V s'.
Proof.
  intros I HS a x lo HI HN. assert (FG := fresh_grows s s' t c l HS).
  assert (TB := tail_below s ns h tr0 I). assert (HB := h_below s ns h tr0 I).
  assert (PR : forall b, private (q_pc V s t) = Some b -> b < q_fresh V s) by (intros b E; apply (i_priv _ _ _ _ I t b E)).
  assert (TK : forall b, taking (q_head V s) (q_pc V s t) b -> b < q_fresh V s) by (intros b E; destruct (taking_in s ns h tr0 t b I E) as (-> & _); exact HB).
  assert (PU : q_pc V s t = Idle V -> forall v, c = Call V (OPush V v) -> q_fresh V s < q_fresh V s').
  { intros E v ->. unfold step in HS. rewrite E in HS. injection HS as _ <-. cbn. lia. }
  unfold q_accesses in HI. destruct (q_pc V s t) as [|b v|b v|b v|b v| | |k|k f|k f|k f tl|k f tl|k|k f|k|k old|k r|old] eqn:EP.
  1:{ destruct c as [|[v| | |]|w| |]; cbn in HI; try contradiction. specialize (PU eq_refl v eq_refl).
      destruct HI as [HI|[HI|[]]]; injection HI as _ <-; injection HN as <-; exact PU. }
  all: try (destruct (goes_to_sleep _ _ _)); cbn in HI, PR, TK; try contradiction;
    repeat (destruct HI as [HI|HI]; [try discriminate; injection HI as _ <-; try discriminate; injection HN as <-;
      first [lia | specialize (PR _ eq_refl); lia | specialize (TK _ eq_refl); lia]|]); contradiction.
Qed.

Lemma step_J B n (s s' : qst) ns h tr0 tr t c l : Inv s ns h tr0 -> JJ B n tr s -> young s B tr -> B <= length tr -> t <= n -> step V s t c = Some (l, Done V s') ->
  JJ B n (tr ++ map (pair t) (q_accesses V s t c)) s' /\ young s' B (tr ++ map (pair t) (q_accesses V s t c)).
Proof.
  intros I HJ HY HB HN HS. split.
  - destruct (q_pc V s t) eqn:EP; [exact (case_call B n t s ns h tr0 tr I HJ HY HN l s' c EP HS)|..].
    all: assert (NI : q_pc V s t <> Idle V) by (rewrite EP; discriminate).
    all: unfold step in HS; rewrite EP in HS; rewrite <- EP in HS; destruct (step_push V s t (q_pc V s t) c) as [r'|] eqn:ES;
      [injection HS as ->; exact (case_push B n t s ns h tr0 tr I HJ HN l s' c ES NI)|exact (case_cons B n t s ns h tr0 tr I HJ HN l s' c HS NI)].
  - intros p u a lo x Hp E EX. destruct (Nat.lt_ge_cases p (length tr)) as [Hl|Hl].
    + rewrite nth_error_app1 in E by exact Hl. specialize (HY p u a lo x Hp E EX). assert (FG := fresh_grows s s' t c l HS). lia.
    + rewrite nth_error_app2 in E by exact Hl. apply nth_error_In, in_map_iff in E. destruct E as (y & E & HI). injection E as _ ->.
      exact (acc_young s s' ns h tr0 t c l I HS a x lo HI EX).
Qed.

Lemma exec_J n sched : forall (s : qst) ns h tr0 tr l o, Inv s ns h tr0 -> JJ 5 n tr s -> young s 5 tr -> Forall (fun tc => fst tc <= n) sched ->
  exec V s sched = Some (l, o) -> race_free (tr ++ qtrace V s sched).
Proof.
  induction sched as [|[t c] r IH]; intros s ns h tr0 tr l o I HJ HY HT HE; cbn [exec qtrace] in *.
  - rewrite app_nil_r. exact (j_free _ _ _ _ _ HJ).
  - destruct (step V s t c) as [[l1 o1]|] eqn:ES; [|discriminate].
    destruct (step_inv s ns h tr0 t c _ I ES) as (s1 & ns1 & h1 & EO & I1). cbn in EO, I1. subst o1.
    destruct (exec V s1 r) as [[l' o']|] eqn:EE; [|discriminate]. inversion HT as [|? ? HT1 HT2]. subst. cbn in HT1.
    destruct (step_J 5 n s s1 ns h tr0 tr t c l1 I HJ HY (j_len _ _ _ _ _ HJ) HT1 ES) as [HJ1 HY1].
    rewrite app_assoc. exact (IH s1 ns1 h1 _ _ l' o' I1 HJ1 HY1 HT2 EE).
Qed.
Lemma queue_race_free n (sched : list (nat * choice V)) l o : exec V (q_init V) sched = Some (l, o) -> Forall (fun tc => fst tc <= n) sched ->
  race_free (q_prefix n ++ qtrace V (q_init V) sched).
Proof.
  intros HE HT. apply (exec_J n sched (q_init V) [] 0 [] (q_prefix n) l o); [apply inv_init|apply init_J| |exact HT|exact HE].
  intros p t a lo x Hp E _. exfalso. exact (prefix_acc n p t a lo Hp E).
Qed.
Lemma queue_publishes n (sched : list (nat * choice V)) l o a i j k t u w : exec V (q_init V) sched = Some (l, o) -> Forall (fun tc => fst tc <= n) sched ->
  let tr := q_prefix n ++ qtrace V (q_init V) sched in
  k <= i -> i < j -> nth_error tr k = Some (t, w) -> nth_error tr i = Some (t, Acc Wr (QData a)) -> nth_error tr j = Some (u, Acc Rd (QData a)) -> hb tr k j.
Proof.
  intros HE HT tr Hk Hi Ek Ei Ej. assert (F := queue_race_free n sched l o HE HT).
  assert (HIJ : hb tr i j).
  { destruct (Nat.eq_dec t u) as [->|Hn]; [exact (hb_program tr i j u _ _ Hi Ei Ej)|].
    destruct (hb_dec tr i j u _ Ej ltac:(lia)) as [H|H]; [exact H|]. exfalso. apply (F (QData a) i j). split; [exact Hi|]. exists t, u, Wr, Rd. repeat split; auto. }
  destruct (Nat.eq_dec k i) as [->|Hn]; [exact HIJ|]. apply (hb_trans tr k i j); [|exact HIJ]. exact (hb_program tr k i t _ _ ltac:(lia) Ek Ei).
Qed.
End P.
