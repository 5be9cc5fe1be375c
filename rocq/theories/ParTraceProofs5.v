(** Where the parallel flow races: the first state, all executions, and the consequences. *)
From Coq Require Import String List Bool NArith QArith Arith Lia.
From Verif Require Import Criterion Config SeqFlow ParFlow Trace TraceProofs RaceProofs ParTrace RaceSpec
  ParTraceProofs ParTraceProofs2 ParTraceProofs3 ParTraceProofs4.
Import ListNotations.
Local Open Scope list_scope.
Local Open Scope nat_scope.

Section P.
Context {Stim Gen : Type}.
Notation env := (env Stim Gen).
Notation pst := (pst Stim Gen).
Notation tst := (tst Stim Gen).
Implicit Types (tr : trace loc) (T : tst).

(** ** before the first thread *)
Lemma init_event (e : env) c q u w : nth_error (init_events e c) q = Some (u, w) -> u = 0 /\ exists l, w = Acc Wr l.
Proof.
  intros H. apply nth_error_In in H. unfold init_events, as_thread in H. apply in_map_iff in H. destruct H as (x & E & H).
  injection E as <- <-. split; [reflexivity|]. rewrite !in_app_iff in H. destruct H as [H|[H|[H|H]]].
  - cbn in H. repeat (destruct H as [<-|H]; [eexists; reflexivity|]). destruct H.
  - apply in_map_iff in H. destruct H as (i & <- & _). eexists; reflexivity.
  - cbn in H. destruct H as [<-|[]]. eexists; reflexivity.
  - destruct (zx_alone_unsupported e c); [|destruct H]. cbn in H. destruct H as [<-|[]]. eexists; reflexivity.
Qed.
Lemma init_secret (e : env) c p : (forall u, u <> 0 -> known (clk (init_events e c)) u p = false) /\
  (forall m, released (clk (init_events e c)) m p = false).
Proof.
  split.
  - intros u Hu. destruct (known _ u p) eqn:K; [|reflexivity]. exfalso.
    destruct (proj1 (clk_sound _) _ _ K) as (q & v & w & _ & H & H'). destruct (init_event _ _ _ _ _ H) as (-> & l & ->).
    destruct H' as [H'|H']; [congruence|discriminate].
  - intros m. destruct (released _ m p) eqn:K; [|reflexivity]. exfalso.
    destruct (proj2 (clk_sound _) _ _ K) as (q & v & _ & H). destruct (init_event _ _ _ _ _ H) as (_ & l & H'). discriminate.
Qed.

Lemma init_good (e : env) c g pp : Good (init_events e c) (t_init e c g pp).
Proof.
  split.
  - constructor.
    + intros p t a l H. destruct (init_event _ _ _ _ _ H) as (-> & l' & E). injection E as -> ->.
      assert (K : known (clk (init_events e c)) 0 p = true) by (eapply known_own; exact H).
      assert (EV : everyone (init_events e c) (t_init e c g pp) p) by (split; [exact K|intros i; exact K]).
      destruct l'; cbn; auto.
    + cbn. lia.
    + cbn. discriminate.
    + cbn. discriminate.
    + cbn. intros i x H H'. exfalso. apply H'. apply nth_error_In in H. apply repeat_spec in H. subst x. reflexivity.
    + reflexivity.
    + right. cbn. discriminate.
    + cbn. split; [constructor|]. intros i [].
    + intros q u t H. destruct (init_event _ _ _ _ _ H) as (_ & l & E). discriminate.
    + cbn. lia.
    + intros H d [H1 H2]. change (zx_alone_unsupported e c = false) in H. destruct d as [|d]; [lia|]. unfold init_events in H2. rewrite H in H2.
      unfold as_thread in H2. rewrite nth_error_map in H2. cbn [List.app nth_error] in H2.
      destruct (nth_error _ d) as [w|] eqn:E; [|discriminate]. injection H2 as ->. apply nth_error_In in E.
      cbn in E. repeat (destruct E as [E|E]; [discriminate|]). rewrite in_app_iff in E. destruct E as [E|E].
      * apply in_map_iff in E. destruct E as (i & E & _). discriminate.
      * destruct E as [E|[]]. discriminate.
    + cbn. split; [|split].
      * intros ks H. destruct (zx_alone_unsupported e c); [discriminate|reflexivity].
      * intros H. destruct (zx_alone_unsupported e c); discriminate.
      * intros j H. destruct (zx_alone_unsupported e c); discriminate.
    + intros d _. apply init_secret.
  - intros x i j (Hlt & t & u & a & b & H1 & H2 & H3 & _). exfalso. apply H3.
    destruct (init_event _ _ _ _ _ H1) as (-> & _). destruct (init_event _ _ _ _ _ H2) as (-> & _). reflexivity.
Qed.

(** ** all executions *)
Lemma step_good (e : env) a tr T s' l T' : Good tr T -> pstep e a (t_st T) = Some s' -> step_events e a T = (l, T') ->
  Good (tr ++ l) (with_st s' T').
Proof.
  intros HG HS HE. destruct a as [| |i|i]; cbn in HS, HE; unfold as_thread, main_thread in HE.
  - destruct (main_events T) as [l0 T0] eqn:E. injection HE as <- <-. exact (main_good tr T s' l0 T0 HG HS E).
  - injection HE as <- <-. exact (timeout_good tr T s' HG HS).
  - injection HE as <- <-. exact (worker_good e tr T i s' HG HS).
  - injection HE as <- <-. exact (abort_good tr T i s' HG HS).
Qed.

Lemma trun_good (e : env) acts : forall tr T l T', Good tr T -> trun e acts T = Some (l, T') -> Good (tr ++ l) T'.
Proof.
  induction acts as [|a acts IH]; cbn; intros tr T l T' HG H.
  - injection H as <- <-. rewrite app_nil_r. exact HG.
  - destruct (pstep e a (t_st T)) as [s'|] eqn:ES; [|discriminate].
    destruct (step_events e a T) as [l0 T0] eqn:EE.
    destruct (trun e acts (with_st s' T0)) as [[l1 T1]|] eqn:ER; [|discriminate]. injection H as <- <-.
    rewrite app_assoc. eapply IH; [|exact ER]. eapply step_good; eauto.
Qed.

Lemma par_trace_good (e : env) c g pp tr s : par_trace e c g pp tr s -> exists T, Good tr T /\ t_st T = s.
Proof.
  intros (acts & l & T & H & -> & ->). exists T. split; [|reflexivity]. eapply trun_good; [apply init_good|exact H].
Qed.

(** ** the traces are those of the executions of ParFlow.v *)
Lemma trun_prun (e : env) acts : forall T, prun e acts (t_st T) = option_map (fun p => t_st (snd p)) (trun e acts T).
Proof.
  induction acts as [|a acts IH]; cbn; intros T; [reflexivity|].
  destruct (pstep e a (t_st T)) as [s'|]; [|reflexivity]. destruct (step_events e a T) as [l0 T0].
  change s' with (t_st (with_st s' T0)). rewrite IH. destruct (trun e acts _) as [[l1 T1]|]; reflexivity.
Qed.

(** ** consequences *)
Lemma pr_where (e : env) c g pp tr s l i j : par_trace e c g pp tr s -> race_on tr l i j ->
  cancellation_loc l /\
  exists m w t a b d, ((m = i /\ w = j) \/ (m = j /\ w = i)) /\
    nth_error tr m = Some (main_thread, Acc a l) /\ nth_error tr w = Some (t, Acc b l) /\ t <> main_thread /\
    sets_done tr d /\ d <= m /\ not_waited_for tr t j.
Proof.
  intros HP HR. destruct (par_trace_good _ _ _ _ _ _ HP) as (T & [_ HG] & _).
  destruct (HG _ _ _ HR) as (HC & m & w & t & a & b & H1 & H2 & H3 & H4 & (d & H5 & H6) & H7).
  split; [exact HC|]. exists m, w, t, a, b, d. auto 8.
Qed.

Lemma pr_undecided (e : env) c g pp tr s : par_trace e c g pp tr s -> p_done s = false -> race_free tr.
Proof.
  intros HP HD l i j HR. destruct (pr_where _ _ _ _ _ _ _ _ _ HP HR) as (_ & m & w & t & a & b & d & _ & _ & _ & _ & H & _).
  destruct (par_trace_good _ _ _ _ _ _ HP) as (T & [HI _] & <-). exact (i_undone _ _ HI HD d H).
Qed.

Lemma pr_free_on (e : env) c g pp tr s l : par_trace e c g pp tr s -> ~ cancellation_loc l -> race_free_on tr l.
Proof. intros HP HC i j HR. apply HC. exact (proj1 (pr_where _ _ _ _ _ _ _ _ _ HP HR)). Qed.

(** a prefix of a trace has smaller clocks *)
Lemma known_firstn tr n u p : known (clk (firstn n tr)) u p = true -> known (clk tr) u p = true.
Proof. intros H. rewrite <- (firstn_skipn n tr). apply known_mono, H. Qed.

Lemma pr_read_after (e : env) c g pp tr s l d m w t a b : par_trace e c g pp tr s -> sets_done tr d -> d <= m -> m < w ->
  nth_error tr m = Some (main_thread, Acc a l) -> nth_error tr w = Some (t, Acc b l) -> t <> main_thread -> conflicting a b ->
  race_on tr l m w.
Proof.
  intros HP HD Hle Hlt Hm Hw Ht HC. destruct (par_trace_good _ _ _ _ _ _ HP) as (T & [HI _] & _).
  split; [exact Hlt|]. exists main_thread, t, a, b. split; [exact Hm|]. split; [exact Hw|]. split; [congruence|]. split; [exact HC|].
  intros HB. assert (HB' : hb tr d w).
  { destruct (Nat.eq_dec d m) as [->|Hn]; [exact HB|]. eapply hb_trans; [|exact HB].
    eapply hb_program; [|exact (proj2 HD)|exact Hm]. lia. }
  apply hb_post in HB'. destruct HB' as (u & v & E & K). rewrite Hw in E. injection E as <- <-. apply known_firstn in K.
  rewrite (proj1 (i_secret _ _ HI d HD) t Ht) in K. discriminate.
Qed.

(** the main thread only calls get() on futures that it has not used since the thread was started *)
Lemma pr_future (e : env) c g pp acts l T i q : trun e acts (t_init e c g pp) = Some (l, T) ->
  p_main (t_st T) = MLoop -> p_queue (t_st T) = i :: q -> t_fut T i = true.
Proof.
  intros H HM HQ. pose proof (trun_good _ _ _ _ _ _ (init_good e c g pp) H) as [HI _].
  destruct (i_queue _ _ HI) as [_ Q]. rewrite HQ in Q. apply (Q i (or_introl eq_refl)). unfold live. rewrite HM. reflexivity.
Qed.

(** ** every thread is waited for *)
Definition Covered tr T : Prop := forall p u w, nth_error tr p = Some (u, w) ->
  u = 0 \/ (exists k, t_fut T k = true /\ t_tid T k = u) \/ (exists q, p < q /\ nth_error tr q = Some (0, Join u)).

Lemma cov_block tr T t l T' : Covered tr T -> (t = 0 \/ exists k, t_fut T' k = true /\ t_tid T' k = t) ->
  (forall i, t_fut T i = true -> (t_fut T' i = true /\ t_tid T' i = t_tid T i) \/ (t = 0 /\ In (Join (t_tid T i)) l)) ->
  Covered (tr ++ blk t l) T'.
Proof.
  intros HC HT HF p u w H. destruct (new_event _ _ _ _ _ _ H) as [Ho|(-> & _ & _)].
  - destruct (HC _ _ _ Ho) as [->|[(k & H1 & <-)|(q & H1 & H2)]]; [auto| |].
    + destruct (HF k H1) as [[H2 H3]|[-> H2]]; [right; left; eauto|]. right; right.
      apply in_split in H2. destruct H2 as (l1 & l2 & ->). exists (length tr + length l1). split; [apply nth_lt in Ho; lia|].
      apply nth_block.
    + right; right. exists q. split; [exact H1|apply nth_app_old, H2].
  - destruct HT as [->|HT]; auto.
Qed.

Lemma cov_main tr T s' l T' : Good tr T -> Covered tr T -> main_step (t_st T) = Some s' -> main_events T = (l, T') ->
  Covered (tr ++ blk 0 l) (with_st s' T').
Proof.
  intros [HI _] HC HS HE. apply (cov_block tr T); [exact HC|left; reflexivity|]. intros i Hi. cbn.
  unfold main_step in HS. unfold main_events in HE.
  assert (LEN : p_main (t_st T) <> MOutOfBounds -> i < length (p_slots (t_st T))).
  { intros H. destruct (i_futlen _ _ HI) as [H'|H']; [congruence|exact (H' i Hi)]. }
  destruct (p_main (t_st T)) as [ks| |j| | | | | | | ] eqn:EM; try discriminate.
  - destruct ks as [|k ks]; injection HE as <- <-; [auto|]. left. cbn. unfold fset.
    destruct (Nat.eqb_spec i (p_next (t_st T))) as [->|Hn]; [|auto].
    rewrite (i_launch _ _ HI _ EM _ (le_n _)) in Hi. discriminate.
  - destruct (p_queue (t_st T)) as [|k q]; [discriminate|].
    destruct (nth_error (p_slots (t_st T)) k) as [x|]; [|injection HE as <- <-; auto].
    destruct (Nat.eq_dec i k) as [->|Hn].
    + right. split; [reflexivity|]. destruct (sl_exn x); [injection HE as <- <-; cbn; auto 8|].
      destruct (sl_chk x) as [ch|]; [|injection HE as <- <-; cbn; auto 8].
      destruct (handle _ _ _ _ _); injection HE as <- <-; cbn; auto 8.
    + left. apply Nat.eqb_neq in Hn. destruct (sl_exn x); [injection HE as <- <-; cbn; unfold fset; rewrite Hn; auto|].
      destruct (sl_chk x) as [ch|]; [|injection HE as <- <-; cbn; unfold fset; rewrite Hn; auto].
      destruct (handle _ _ _ _ _); injection HE as <- <-; cbn; unfold fset; rewrite !Hn; auto.
  - destruct (nth_error (p_slots (t_st T)) j); injection HE as <- <-; auto.
  - injection HE as <- <-. right. split; [reflexivity|]. apply in_or_app. left. apply waits_in; [exact Hi|].
    apply LEN. discriminate.
  - injection HE as <- <-. right. split; [reflexivity|]. apply waits_in; [exact Hi|]. apply LEN. discriminate.
Qed.

Lemma cov_step (e : env) a tr T s' l T' : Good tr T -> Covered tr T -> pstep e a (t_st T) = Some s' -> step_events e a T = (l, T') ->
  Covered (tr ++ l) (with_st s' T').
Proof.
  intros HG HC HS HE. destruct a as [| |i|i]; cbn in HS, HE; unfold as_thread, main_thread in HE.
  - destruct (main_events T) as [l0 T0] eqn:E. injection HE as <- <-. exact (cov_main tr T s' l0 T0 HG HC HS E).
  - injection HE as <- <-. apply (cov_block tr T 0 timeout_events); auto.
  - injection HE as <- <-. apply (cov_block tr T); auto. right. exists i. split; [|reflexivity]. cbn.
    unfold worker_step in HS. destruct (negb (live (t_st T))); [discriminate|].
    destruct (nth_error (p_slots (t_st T)) i) as [x|] eqn:E; [|discriminate].
    apply (i_active _ _ (proj1 HG) i x E). intros F. rewrite F in HS. discriminate.
  - injection HE as <- <-. apply (cov_block tr T (t_tid T i) (running i)); auto. right. exists i. split; [|reflexivity]. cbn.
    unfold abort_step in HS. destruct (negb (live (t_st T))); [discriminate|].
    destruct (nth_error (p_slots (t_st T)) i) as [x|] eqn:E; [|discriminate].
    apply (i_active _ _ (proj1 HG) i x E). intros F. rewrite F in HS. discriminate.
Qed.

Definition Ended T : Prop := p_main (t_st T) = MReturned \/ p_main (t_st T) = MThrown -> forall i, t_fut T i = false.
Lemma ended_step (e : env) a T s' l T' : pstep e a (t_st T) = Some s' -> step_events e a T = (l, T') -> Ended (with_st s' T').
Proof.
  intros HS HE. unfold Ended. destruct a as [| |i|i]; cbn in HS, HE |- *.
  - unfold main_step in HS. unfold main_events in HE. destruct (p_main (t_st T)) as [ks| |j| | | | | | | ] eqn:EM; try discriminate.
    + intros H. exfalso. destruct ks; [|destruct (nth_error _ _)]; injection HS as <-; cbn in H; destruct H; discriminate.
    + intros H. exfalso. destruct (p_queue (t_st T)) as [|k q]; [discriminate|].
      destruct (nth_error (p_slots (t_st T)) k) as [x|]; [|injection HS as <-; cbn in H; destruct H; discriminate].
      destruct (negb (is_idle x)); [discriminate|]. destruct (sl_exn x); [injection HS as <-; cbn in H; destruct H; discriminate|].
      destruct (sl_chk x); [|injection HS as <-; cbn in H; destruct H; discriminate].
      destruct (handle _ _ _ _ _); injection HS as <-; cbn in H; destruct H; congruence.
    + intros H. exfalso. destruct (nth_error _ _); injection HS as <-; cbn in H; destruct H; discriminate.
    + intros _. injection HE as <- <-. reflexivity.
    + intros _. injection HE as <- <-. reflexivity.
  - intros H. exfalso. unfold timeout_step in HS. destruct (p_main (t_st T)); try discriminate. destruct (p_queue (t_st T)); [|discriminate].
    destruct (hasTimeout _); [|discriminate]. injection HS as <-. cbn in H. destruct H; discriminate.
  - intros H. exfalso. unfold worker_step in HS. destruct (live (t_st T)) eqn:HL; [|discriminate]. cbn [negb] in HS.
    destruct (nth_error (p_slots (t_st T)) i) as [x|] eqn:E; [|discriminate].
    assert (HN : p_main s' = p_main (t_st T) \/ p_main s' = MTerminated).
    { destruct (sl_w x); try discriminate.
      - destruct (sl_chk x); [injection HS as <-; auto|]. destruct (ctor_throws _ _ _); [injection HS as <-; auto|].
        destruct k; try destruct (e_zx_perm_ok e); injection HS as <-; cbn; auto.
      - destruct (e_gen e (p_gen (t_st T))) as [[? ?]|]; [|discriminate]. destruct (sl_chk x); [|discriminate]. injection HS as <-; auto.
      - injection HS as <-; auto.
      - destruct (sl_chk x) as [k|]; [|discriminate]. destruct (k_kind k); try destruct (e_canHandle e); injection HS as <-; auto.
      - injection HS as <-; auto. }
    unfold live in HL. destruct HN as [HN|HN]; rewrite HN in H; [|destruct H; discriminate]. destruct H as [H|H]; rewrite H in HL; discriminate.
  - intros H. exfalso. unfold abort_step in HS. destruct (live (t_st T)) eqn:HL; [|discriminate]. cbn [negb] in HS.
    destruct (nth_error (p_slots (t_st T)) i) as [x|] eqn:E; [|discriminate].
    destruct (sl_w x); try discriminate. destruct (sl_chk x); try discriminate. destruct (sl_flag x); try discriminate.
    injection HS as <-. cbn in H. unfold live in HL. destruct H as [H|H]; rewrite H in HL; discriminate.
Qed.

Lemma trun_covered (e : env) acts : forall tr T l T', Good tr T -> Covered tr T -> Ended T -> trun e acts T = Some (l, T') ->
  Covered (tr ++ l) T' /\ Ended T'.
Proof.
  induction acts as [|a acts IH]; cbn; intros tr T l T' HG HC HD H.
  - injection H as <- <-. rewrite app_nil_r. auto.
  - destruct (pstep e a (t_st T)) as [s'|] eqn:ES; [|discriminate].
    destruct (step_events e a T) as [l0 T0] eqn:EE.
    destruct (trun e acts (with_st s' T0)) as [[l1 T1]|] eqn:ER; [|discriminate]. injection H as <- <-.
    rewrite app_assoc. eapply IH; [| | |exact ER].
    + eapply step_good; eauto.
    + eapply cov_step; eauto.
    + eapply ended_step; eauto.
Qed.

Lemma pr_all_waited (e : env) c g pp tr s : par_trace e c g pp tr s -> p_main s = MReturned \/ p_main s = MThrown ->
  forall p t w, nth_error tr p = Some (t, w) -> t <> main_thread ->
  exists q, p < q /\ nth_error tr q = Some (main_thread, Join t).
Proof.
  intros (acts & l & T & H & -> & ->) HM p t w Hp Ht.
  assert (CV : Covered (init_events e c ++ l) T /\ Ended T).
  { refine (trun_covered e acts (init_events e c) _ _ _ (init_good e c g pp) _ _ H).
    - intros q u v Hq. left. exact (proj1 (init_event _ _ _ _ _ Hq)).
    - unfold Ended. cbn. destruct (zx_alone_unsupported e c); intros [?|?]; discriminate. }
  destruct CV as [HC HD].
  destruct (HC _ _ _ Hp) as [->|[(k & Hk & _)|Hq]]; [contradiction| |exact Hq].
  rewrite (HD HM) in Hk. discriminate.
Qed.

Lemma pr_cover (e : env) c g pp acts s :
  prun e acts (par_init e c g pp) = Some s <-> exists l T, trun e acts (t_init e c g pp) = Some (l, T) /\ t_st T = s.
Proof.
  change (par_init e c g pp) with (t_st (t_init e c g pp)). rewrite trun_prun. split.
  - destruct (trun e acts _) as [[l T]|]; [|discriminate]. cbn. intros H. injection H as <-. eauto.
  - intros (l & T & -> & <-). reflexivity.
Qed.
Lemma pr_data (e : env) c g pp tr s l : par_trace e c g pp tr s ->
  l = LCircuits \/ l = LConfig \/ l = LGen \/ l = LResults \/ l = LQueue \/ (exists i, l = LChecker i) -> race_free_on tr l.
Proof.
  intros HP HL. eapply pr_free_on; [exact HP|]. unfold cancellation_loc.
  intros [->|[(k & ->)|(k & ->)]];
    repeat (destruct HL as [HL|HL]; [discriminate|]); destruct HL as (i & HL); discriminate.
Qed.
End P.
Lemma pr_clocks {L} (tr : trace L) p q t w : nth_error tr q = Some (t, w) ->
  (hb tr p q <-> p <> q /\ known (clk (firstn (S q) tr)) t p = true).
Proof.
  intros E. rewrite hb_iff. unfold post. split; intros [H1 H2]; (split; [exact H1|]).
  - destruct H2 as (u & v & E' & K). rewrite E in E'. injection E' as <- <-. exact K.
  - exists t, w. auto.
Qed.
