(** The two threads end; lost wake-ups; runs that need the deadline; data races. *)
From Coq Require Import String List Bool NArith QArith Arith Lia.
From Verif Require Import Criterion Config SeqFlow Trace SeqThreads SeqThreadsSpec SeqThreadsProofs SeqThreadsProofs2.
Import ListNotations.
Local Open Scope list_scope.
Local Open Scope nat_scope.

Section Ends.
Context {A : Type}.
Notation shared := (shared A).

(** *** the threads end *)
Definition rank (n : nat) (t : tpc) : nat :=
  match t with
  | TNone | TEnded => 0 | TExit => 1 | TSignal j m => m - j + 2
  | TFire => n + 3 | TLate => n + 4 | TWait => n + 5 | TEnqueue => n + 6 | TCheck => n + 7 | TWoken => n + 8 | TStart => n + 9
  end.
Definition forward (w' w : shared) : Prop := exists a, a <> SSpurious /\ sstep a w = Some w'.

Lemma timer_rank (w w' : shared) : stimer w = Some w' -> rank (w_len w') (w_tm w') < rank (w_len w) (w_tm w) /\ w_prog w' = w_prog w.
Proof.
  unfold stimer. destruct (w_tm w) as [| | | | | | | |j n| |]; try discriminate; intros H.
  7:{ destruct (Nat.ltb_spec j n); injection H as <-; cbn; split; auto; lia. }
  all: injection H as <-; cbn; try destruct (w_done w); cbn; split; auto; lia.
Qed.
Lemma timer_acc p :
  (forall w cut w', w_prog w = p -> sstep (SMain cut) w = Some w' -> Init.Wf.Acc forward w') ->
  forall k w, rank (w_len w) (w_tm w) <= k -> w_prog w = p -> Init.Wf.Acc forward w.
Proof.
  intros HM. induction k as [|k IH]; intros w HK HP; constructor; intros w' (a & Ha & HS).
  - unfold sstep in HS. destruct a as [cut| | |]; [apply (HM w cut w' HP HS)| | |].
    + destruct (stopped w); [discriminate|]. destruct (timer_rank w w' HS). lia.
    + contradiction.
    + destruct (stopped w); [discriminate|]. destruct (w_tm w); try discriminate. cbn in HK. lia.
  - destruct a as [cut| | |]; [apply (HM w cut w' HP HS)| | |]; unfold sstep in HS.
    + destruct (stopped w); [discriminate|]. destruct (timer_rank w w' HS) as [H1 H2]. apply IH; [lia|congruence].
    + contradiction.
    + destruct (stopped w); [discriminate|]. destruct (w_tm w) eqn:ET; try discriminate. injection HS as <-. apply IH; [cbn in *; lia|exact HP].
Qed.
Lemma all_acc p : forall w : shared, w_prog w = p -> Init.Wf.Acc forward w.
Proof.
  induction p as [k IH|p IH|p IH|p IH|p IH|k IH|p IH|a]; intros w HP;
    (refine (timer_acc _ _ _ w (Nat.le_refl _) HP); clear w HP; intros w cut w' HP HS;
     unfold sstep in HS; destruct (stopped w); [discriminate|]; unfold smain in HS; rewrite HP in HS).
  - injection HS as <-. eapply IH; reflexivity.
  - injection HS as <-. apply IH; reflexivity.
  - injection HS as <-. apply IH; reflexivity.
  - injection HS as <-. apply IH; reflexivity.
  - injection HS as <-. apply IH; reflexivity.
  - destruct (_ || _); [|discriminate]. injection HS as <-. eapply IH; reflexivity.
  - destruct (w_tm w); try discriminate; injection HS as <-; apply IH; reflexivity.
  - discriminate.
Qed.
Lemma no_infinite (ws : nat -> shared) (acts : nat -> sact) m :
  (forall n, sstep (acts n) (ws n) = Some (ws (S n))) -> exists n, m <= n /\ acts n = SSpurious.
Proof.
  intros H. assert (HA := all_acc _ (ws m) eq_refl). remember (ws m) as w eqn:E. revert m E.
  induction HA as [w _ IH]; intros m ->.
  destruct (acts m) eqn:EA; try (exists m; split; [lia|exact EA]).
  all: (destruct (IH (ws (S m))) with (m := S m) as (n & Hn & En);
        [exists (acts m); split; [rewrite EA; discriminate|apply H]|reflexivity|exists n; split; [lia|exact En]]).
Qed.

(** something can always happen *)
Lemma never_stuck (w : shared) : stopped w = false -> exists a w', a <> SSpurious /\ sstep a w = Some w'.
Proof.
  intros HS. unfold sstep.
  assert (MAIN : (exists w', smain false w = Some w') \/ exists p, w_prog w = PJoin p /\ w_tm w <> TNone /\ w_tm w <> TEnded).
  { unfold smain. unfold stopped in HS. apply orb_false_elim in HS. destruct (w_prog w) eqn:EP; try (left; eexists; reflexivity).
    - destruct (w_tm w) eqn:ET; try (left; eexists; reflexivity); right; eexists; repeat split; discriminate.
    - destruct HS; discriminate. }
  destruct MAIN as [[w' H]|(p & HP & HN & HE)].
  - exists (SMain false), w'. rewrite HS. split; [discriminate|exact H].
  - destruct (w_tm w) eqn:ET; try contradiction.
    1,2,3,5,6,7: (exists STimer; rewrite HS; unfold stimer; rewrite ET; eexists; split; [discriminate|reflexivity]).
    + exists SDeadline. rewrite HS. eexists. split; [discriminate|reflexivity].
    + exists STimer. rewrite HS. unfold stimer. rewrite ET. destruct (Nat.ltb j n); eexists; (split; [discriminate|reflexivity]).
    + exists STimer. rewrite HS. unfold stimer. rewrite ET. eexists; (split; [discriminate|reflexivity]).
Qed.
Lemma can_finish (w : shared) : exists acts w', srun acts w = Some w' /\ stopped w' = true.
Proof.
  induction (all_acc _ w eq_refl) as [w _ IH]. destruct (stopped w) eqn:HS.
  - exists [], w. split; [reflexivity|exact HS].
  - destruct (never_stuck w HS) as (a & w1 & Ha & H1). destruct (IH w1) as (acts & w' & H2 & H3); [exists a; auto|].
    exists (a :: acts), w'. cbn. rewrite H1. auto.
Qed.

(** *** wake-ups *)
Definition heading_out (t : tpc) : Prop := t <> TWait /\ t <> TEnqueue.
Lemma out_step a (w w' : shared) : sstep a w = Some w' -> w_done w = true -> heading_out (w_tm w) -> w_done w' = true /\ heading_out (w_tm w').
Proof.
  unfold sstep. destruct (stopped w); [discriminate|]. intros HS HD [H1 H2]. destruct a as [cut| | |].
  - unfold smain in HS. destruct (w_prog w); try discriminate; try (injection HS as <-; cbn; split; [auto|split; assumption]).
    + injection HS as <-. cbn. split; [auto|]. destruct (w_tm w); split; try discriminate; congruence.
    + destruct (_ || _); [|discriminate]. injection HS as <-. cbn. split; [auto|split; assumption].
    + destruct (w_tm w); try discriminate; injection HS as <-; cbn; (split; [auto|split; discriminate]).
  - unfold stimer in HS. destruct (w_tm w); try discriminate; try contradiction; try (injection HS as <-; cbn; rewrite ?HD; split; [auto|split; discriminate]).
    destruct (Nat.ltb j n); injection HS as <-; cbn; (split; [auto|split; discriminate]).
  - destruct (w_tm w); try discriminate. contradiction.
  - destruct (w_tm w); try discriminate. contradiction.
Qed.
Lemma out_run acts : forall w w' : shared, srun acts w = Some w' -> w_done w = true -> heading_out (w_tm w) -> w_done w' = true /\ heading_out (w_tm w').
Proof.
  induction acts as [|a l IH]; intros w w' HR HD HO; cbn in HR; [injection HR as <-; auto|].
  destruct (sstep a w) as [w1|] eqn:ES; [|discriminate]. destruct (out_step a w w1 ES HD HO). eauto.
Qed.
Lemma prompt (w w1 w' : shared) p cut : w_prog w = PNotify p -> w_done w = true -> w_tm w <> TEnqueue -> sstep (SMain cut) w = Some w1 ->
  reached w1 w' -> ~ only_time_helps w'.
Proof.
  intros HP HD HT HS (acts & HR) (O1 & O2 & O3).
  assert (H1 : w_done w1 = true /\ heading_out (w_tm w1)).
  { unfold sstep in HS. destruct (stopped w); [discriminate|]. unfold smain in HS. rewrite HP in HS. injection HS as <-. cbn. split; [exact HD|].
    destruct (w_tm w); split; congruence. }
  destruct H1 as [HD1 HO1]. destruct (out_run acts w1 w' HR HD1 HO1) as [HD' [N1 N2]].
  destruct (never_stuck w' O3) as ([cut'| | |] & w2 & Ha & H2); try congruence.
  unfold sstep in H2. rewrite O3 in H2. destruct (w_tm w'); try discriminate. contradiction.
Qed.

(** *** runs that nobody announces *)
Section Silent.
Variable good : A -> Prop.
Fixpoint silent (p : prog A) : Prop :=
  match p with
  | PRead k | PRun k => silent (k false)
  | PSet _ => False
  | PNotify p | PEmplace p | PClear p => silent p
  | PJoin _ => True
  | PLeave a => ~ good a
  end.
Definition early (t : tpc) : bool := match t with TStart | TCheck | TEnqueue | TWait | TWoken => true | _ => false end.
Lemma silent_run acts : forall (w w' : shared) b, srun acts w = Some w' -> ~ In SDeadline acts -> silent (w_prog w) -> w_done w = false ->
  early (w_tm w) = true -> own_only b (w_prog w) -> (b = true -> w_flag w (Nat.pred (w_len w)) = false) ->
  forall a, w_prog w' = PLeave a -> ~ good a.
Proof.
  induction acts as [|x acts IH]; intros w w' b HR HN HI HD HE HO HF a HA; cbn [srun] in HR.
  - injection HR as <-. rewrite HA in HI. exact HI.
  - assert (HN' : ~ In SDeadline acts) by (intros F; apply HN; right; exact F).
    destruct (sstep x w) as [w1|] eqn:ES; [|discriminate]. unfold sstep in ES. destruct (stopped w); [discriminate|]. destruct x as [cut| | |].
    + unfold smain in ES. destruct (w_prog w) as [k|p|p|p|p|k|p|y] eqn:EP; cbn [silent own_only] in *.
      * injection ES as <-. refine (IH _ w' b HR HN' _ HD HE _ HF a HA); cbn; [rewrite HD; exact HI|apply HO].
      * contradiction.
      * injection ES as <-. refine (IH _ w' b HR HN' HI HD _ HO HF a HA). cbn. destruct (w_tm w); auto.
      * injection ES as <-. refine (IH _ w' true HR HN' HI HD HE HO _ a HA). intros _. cbn. unfold upd_flag. rewrite Nat.eqb_refl. reflexivity.
      * injection ES as <-. refine (IH _ w' false HR HN' HI HD HE HO _ a HA). discriminate.
      * destruct HO as [-> HO]. rewrite (HF eq_refl), orb_false_r in ES. destruct cut; [discriminate|]. injection ES as <-.
        refine (IH _ w' true HR HN' _ HD HE _ HF a HA); cbn; [exact HI|apply HO].
      * destruct (w_tm w); discriminate.
      * discriminate.
    + assert (HE' : exists t, w1 = set_tm t w /\ early t = true).
      { unfold stimer in ES. rewrite HD in ES. destruct (w_tm w); try discriminate; injection ES as <-; eexists; split; reflexivity. }
      destruct HE' as (t & -> & HE'). exact (IH _ w' b HR HN' HI HD HE' HO HF a HA).
    + destruct (w_tm w); try discriminate. injection ES as <-. refine (IH _ w' b HR HN' HI HD _ HO HF a HA); reflexivity.
    + exfalso. apply HN. left. reflexivity.
Qed.
End Silent.

(** *** accesses *)
Lemma done_by acts : forall w w' : shared, srun acts w = Some w' -> w_done w = false -> w_done w' = true ->
  In (0, Acc Wr SDone) (strace acts w) \/ In (1, Acc Wr SDone) (strace acts w).
Proof.
  induction acts as [|x acts IH]; intros w w' HR H0 H1; cbn [srun strace] in *; [injection HR as <-; congruence|].
  destruct (sstep x w) as [w1|] eqn:ES; [|discriminate].
  destruct (w_done w1) eqn:D1.
  - assert (ES' := ES). unfold sstep in ES. destruct (stopped w); [discriminate|]. destruct x as [cut| | |]; cbn [step_accesses].
    + left. apply in_or_app. left. unfold smain in ES. unfold main_accesses. destruct (w_prog w); try discriminate; try (injection ES as <-; cbn in D1; congruence).
      * left. reflexivity.
      * destruct (_ || _); [|discriminate]. injection ES as <-. cbn in D1. congruence.
      * destruct (w_tm w); try discriminate; injection ES as <-; cbn in D1; congruence.
    + right. apply in_or_app. left. unfold stimer in ES. unfold timer_accesses. destruct (w_tm w); try discriminate; try (injection ES as <-; cbn in D1; congruence).
      * left. reflexivity.
      * destruct (Nat.ltb j n); injection ES as <-; cbn in D1; congruence.
    + destruct (w_tm w); try discriminate. injection ES as <-. cbn in D1. congruence.
    + destruct (w_tm w); try discriminate. injection ES as <-. cbn in D1. congruence.
  - destruct (IH w1 w' HR D1 H1) as [H|H]; [left|right]; apply in_or_app; right; exact H.
Qed.
Lemma timer_reads acts : forall w w' : shared, srun acts w = Some w' -> w_tm w = TStart \/ w_tm w = TCheck -> w_tm w' = TEnded ->
  In (1, Acc Rd SDone) (strace acts w).
Proof.
  induction acts as [|x acts IH]; intros w w' HR H0 H1; cbn [srun strace] in *; [injection HR as <-; destruct H0; congruence|].
  destruct (sstep x w) as [w1|] eqn:ES; [|discriminate]. unfold sstep in ES. destruct (stopped w); [discriminate|].
  destruct x as [cut| | |]; cbn [step_accesses].
  - apply in_or_app. right. apply (IH w1 w' HR); [|exact H1].
    assert (E : w_tm w1 = w_tm w); [|rewrite E; exact H0].
    unfold smain in ES. destruct (w_prog w); try discriminate; try (injection ES as <-; reflexivity).
    + injection ES as <-. cbn. destruct H0 as [-> | ->]; reflexivity.
    + destruct (_ || _); [|discriminate]. injection ES as <-. reflexivity.
    + destruct (w_tm w); try discriminate; injection ES as <-; reflexivity.
  - destruct H0 as [H0|H0]; unfold stimer in ES; rewrite H0 in ES; injection ES as <-; apply in_or_app.
    + right. apply (IH (set_tm TCheck w) w' HR); [right; reflexivity|exact H1].
    + left. unfold timer_accesses. rewrite H0. left. reflexivity.
  - destruct H0 as [H0|H0]; rewrite H0 in ES; discriminate.
  - destruct H0 as [H0|H0]; rewrite H0 in ES; discriminate.
Qed.
Definition over (t : tpc) : bool := match t with TExit | TEnded | TSignal _ _ => true | _ => false end.
Lemma ended_done acts : forall w w' : shared, srun acts w = Some w' -> (over (w_tm w) = true -> w_done w = true) -> over (w_tm w') = true -> w_done w' = true.
Proof.
  induction acts as [|x acts IH]; intros w w' HR H0 H1; cbn [srun] in *; [injection HR as <-; auto|].
  destruct (sstep x w) as [w1|] eqn:ES; [|discriminate]. apply (IH w1 w' HR); [|exact H1].
  unfold sstep in ES. destruct (stopped w); [discriminate|]. destruct x as [cut| | |].
  - unfold smain in ES. destruct (w_prog w); try discriminate; try (injection ES as <-; exact H0).
    + injection ES as <-. cbn. auto.
    + injection ES as <-. cbn. destruct (w_tm w); auto.
    + destruct (_ || _); [|discriminate]. injection ES as <-. exact H0.
    + destruct (w_tm w); try discriminate; injection ES as <-; exact H0.
  - unfold stimer in ES. destruct (w_tm w); try discriminate; try (destruct (Nat.ltb j n)); injection ES as <-; cbn in *; auto;
      destruct (w_done w); auto.
  - destruct (w_tm w); try discriminate. injection ES as <-. discriminate.
  - destruct (w_tm w); try discriminate. injection ES as <-. discriminate.
Qed.
Section Touch.
Variable good : A -> Prop.
Fixpoint touches (p : prog A) : Prop :=
  match p with
  | PRead _ | PSet _ => True
  | PRun k => forall b, touches (k b)
  | PNotify p | PEmplace p | PClear p => touches p
  | PJoin _ => False
  | PLeave a => ~ good a
  end.
Lemma main_touches acts : forall w w' : shared, srun acts w = Some w' -> touches (w_prog w) -> forall a, w_prog w' = PLeave a -> good a ->
  exists b, In (0, Acc b SDone) (strace acts w).
Proof.
  induction acts as [|x acts IH]; intros w w' HR HT a HA HG; cbn [srun strace] in *; [injection HR as <-; rewrite HA in HT; contradiction|].
  destruct (sstep x w) as [w1|] eqn:ES; [|discriminate].
  assert (CASE : touches (w_prog w1) \/ exists b, In (0, Acc b SDone) (step_accesses x w)).
  { unfold sstep in ES. destruct (stopped w); [discriminate|]. destruct x as [cut| | |]; cbn [step_accesses].
    - unfold smain in ES. unfold main_accesses. destruct (w_prog w) eqn:EP; try discriminate; cbn [touches] in HT; try (injection ES as <-; left; exact HT).
      + right. eexists. left. reflexivity.
      + right. eexists. left. reflexivity.
      + destruct (_ || _); [|discriminate]. injection ES as <-. left. apply HT.
      + contradiction.
    - left. replace (w_prog w1) with (w_prog w); [exact HT|]. symmetry. apply (timer_rank w w1 ES).
    - destruct (w_tm w); try discriminate. injection ES as <-. left. exact HT.
    - destruct (w_tm w); try discriminate. injection ES as <-. left. exact HT. }
  destruct CASE as [HT'|[b Hb]].
  - destruct (IH w1 w' HR HT' a HA HG) as [b Hb]. exists b. apply in_or_app. right. exact Hb.
  - exists b. apply in_or_app. left. exact Hb.
Qed.
End Touch.

(** the shape of a complete execution that joins *)
Lemma joined_before acts : forall w w' : shared, srun acts w = Some w' -> forall a b, guarded b (w_prog w) -> w_prog w' = PLeave a ->
  w_tm w <> TNone -> ~ In (0, Join 1) (strace acts w) \/ (exists tr, strace acts w = tr ++ [(0, Join 1)] /\ ~ In (0, Join 1) tr) .
Proof.
  assert (MT : forall w : shared, ~ In (0, Join 1) (map (pair 1) (timer_accesses w))).
  { intros w F. apply in_map_iff in F. destruct F as (x & E & _). discriminate. }
  induction acts as [|x acts IH]; intros w w' HR a b HG HA HT; cbn [srun strace] in *; [left; intros []|].
  destruct (sstep x w) as [w1|] eqn:ES; [|discriminate].
  assert (GO : forall b', guarded b' (w_prog w1) -> w_tm w1 <> TNone -> ~ In (0, Join 1) (step_accesses x w) ->
             ~ In (0, Join 1) (step_accesses x w ++ strace acts w1) \/
             (exists tr, step_accesses x w ++ strace acts w1 = tr ++ [(0, Join 1)] /\ ~ In (0, Join 1) tr)).
  { intros b' HG' HT' HN. destruct (IH w1 w' HR a b' HG' HA HT') as [H|(tr & H & H')].
    - left. intros F. apply in_app_or in F. tauto.
    - right. exists (step_accesses x w ++ tr). rewrite H, app_assoc. split; [reflexivity|]. intros F. apply in_app_or in F. tauto. }
  unfold sstep in ES. destruct (stopped w) eqn:EST; [discriminate|]. destruct x as [cut| | |].
  - unfold smain in ES. cbn [step_accesses] in *. unfold main_accesses in *. destruct (w_prog w) as [k|p|p|p|p|k|p|y] eqn:EP; cbn [guarded] in HG.
    + injection ES as <-. destruct (w_done w); [apply (GO false)|apply (GO true)]; cbn; try apply HG; auto; intros [F|[]]; discriminate.
    + injection ES as <-. apply (GO false); cbn; auto; intros [F|[]]; discriminate.
    + injection ES as <-. apply (GO b); cbn; auto. destruct (w_tm w); auto; discriminate.
    + injection ES as <-. apply (GO false); cbn; auto. intros F. repeat (destruct F as [F|F]; [discriminate|]). exact F.
    + injection ES as <-. apply (GO false); cbn; auto. intros F. repeat (destruct F as [F|F]; [discriminate|]). exact F.
    + destruct (_ || _); [|discriminate]. injection ES as <-. apply (GO false); cbn; [apply HG|auto|]. intros F. repeat (destruct F as [F|F]; [discriminate|]). exact F.
    + destruct HG as [a0 ->]. destruct (w_tm w) eqn:ET; try discriminate; [contradiction|]. injection ES as <-. right. exists [].
      assert (acts = []).
      { destruct acts as [|x acts]; [reflexivity|]. cbn [srun] in HR. unfold sstep, stopped in HR. cbn in HR. rewrite orb_true_r in HR. discriminate. }
      subst acts. split; [reflexivity|intros []].
    + discriminate.
  - assert (HN : w_prog w1 = w_prog w /\ w_tm w1 <> TNone).
    { split; [apply (timer_rank w w1 ES)|]. unfold stimer in ES. destruct (w_tm w); try discriminate; try (destruct (Nat.ltb j n)); injection ES as <-; cbn;
        try destruct (w_done w); discriminate. }
    destruct HN as [HN1 HN2]. apply (GO b); [rewrite HN1; exact HG|exact HN2|]. apply MT.
  - destruct (w_tm w); try discriminate. injection ES as <-. apply (GO b); [exact HG|discriminate|intros []].
  - destruct (w_tm w); try discriminate. injection ES as <-. apply (GO b); [exact HG|discriminate|intros []].
Qed.
Definition thread_kind (ev : nat * what sloc) : Prop :=
  match ev with
  | (0, Acc _ _) | (0, Join 1) | (1, Acc _ _) | (1, Lock _) | (1, Unlock _) => True
  | _ => False
  end.
Lemma kinds acts : forall (w : shared) ev, In ev (strace acts w) -> thread_kind ev.
Proof.
  induction acts as [|x acts IH]; intros w ev HI; cbn [strace] in HI; [destruct HI|].
  destruct (sstep x w) as [w1|] eqn:ES; [|destruct HI]. apply in_app_or in HI. destruct HI as [HI|HI]; [|eauto].
  destruct x as [cut| | |]; cbn [step_accesses] in HI; [| |destruct HI|destruct HI]; apply in_map_iff in HI; destruct HI as (y & <- & HI).
  - unfold main_accesses in HI. destruct (w_prog w); cbn in HI; try (destruct HI as [<-|HI]; [exact I|]);
      try (destruct HI as [<-|HI]; [exact I|]); try (destruct HI as [<-|HI]; [exact I|]); try (destruct HI as [<-|HI]; [exact I|]); try destruct HI.
    destruct (w_tm w); try (destruct HI as [<-|[]]; exact I); destruct HI.
  - unfold timer_accesses in HI. destruct (w_tm w) as [| | | | | | | |j n| |]; try (destruct (Nat.ltb j n)); cbn in HI;
      try (destruct HI as [<-|HI]; [exact I|]); try (destruct HI as [<-|HI]; [exact I|]); destruct HI.
Qed.
End Ends.

Lemma hb_lt {L} (tr : trace L) i j : hb tr i j -> i < j.
Proof. induction 1; lia. Qed.
Lemma hb_same (tr : trace sloc) bound : (forall k ev, 2 <= k < bound -> nth_error tr k = Some ev -> thread_kind ev /\ ev <> (0, Join 1)) ->
  forall i j, hb tr i j -> 2 <= i -> j < bound -> exists t a b, nth_error tr i = Some (t, a) /\ nth_error tr j = Some (t, b).
Proof.
  intros HK i j H. induction H as [i j t a b Hl Hi Hj|i j t u b Hl Hi Hj|i j t u a Hl Hi Hj|i j t u v Hl Hi Hj|i j t u m Hl Hi Hj|i j k H1 IH1 H2 IH2]; intros H0 HB.
  - eauto.
  - destruct (HK i _ ltac:(lia) Hi) as [F _]. destruct t as [|[|]]; cbn in F; contradiction.
  - destruct (HK j _ ltac:(lia) Hj) as [F F2]. destruct t as [|[|]]; cbn in F; try contradiction. destruct u as [|[|]]; try contradiction.
  - destruct (HK i _ ltac:(lia) Hi) as [F _]. destruct t as [|[|]]; cbn in F; contradiction.
  - destruct (HK i _ ltac:(lia) Hi) as [F _]. destruct (HK j _ ltac:(lia) Hj) as [G _].
    destruct t as [|[|]]; cbn in F; try contradiction. destruct u as [|[|]]; cbn in G; try contradiction. eauto.
  - assert (L1 := hb_lt tr i j H1). assert (L2 := hb_lt tr j k H2).
    destruct IH1 as (t & a & b & E1 & E2); [lia|lia|]. destruct IH2 as (t' & a' & b' & E3 & E4); [lia|lia|].
    rewrite E2 in E3. injection E3 as <- <-. eauto.
Qed.

Section Race.
Context {A : Type}.
Variable good : A -> Prop.
(** two conflicting accesses of the two threads are a race *)
Lemma pair_races acts (w w' : shared A) a b : srun acts w = Some w' -> guarded b (w_prog w) -> w_prog w' = PLeave a -> w_tm w <> TNone ->
  forall x y l, In (0, Acc x l) (strace acts w) -> In (1, Acc y l) (strace acts w) -> conflicting x y ->
  exists i j, race_on (s_prefix true ++ strace acts w) l i j.
Proof.
  intros HR HG HA HT x y l HX HY HC.
  assert (SH : exists tr post, strace acts w = tr ++ post /\ ~ In (0, Join 1) tr /\ (post = [] \/ post = [(0, Join 1)])).
  { destruct (joined_before acts w w' HR a b HG HA HT) as [H|(tr & H & H')]; [exists (strace acts w), []|exists tr, [(0, Join 1)]];
      repeat split; auto. symmetry. apply app_nil_r. }
  destruct SH as (tr & post & E & HN & HP).
  assert (INN : forall t z, In (t, Acc z l) (strace acts w) -> In (t, Acc z l) tr).
  { intros t z F. rewrite E in F. apply in_app_or in F. destruct F as [F|F]; [exact F|]. destruct HP as [-> | ->]; [destruct F|].
    destruct F as [F|[]]. discriminate. }
  apply INN in HX. apply INN in HY.
  apply In_nth_error in HX. destruct HX as [p HX]. apply In_nth_error in HY. destruct HY as [q HY].
  assert (LP : p < length tr) by (apply nth_error_Some; congruence). assert (LQ : q < length tr) by (apply nth_error_Some; congruence).
  set (T := s_prefix true ++ strace acts w).
  assert (NT : forall k, k < length tr -> nth_error T (2 + k) = nth_error tr k).
  { intros k Hk. unfold T. cbn. rewrite E. apply nth_error_app1. exact Hk. }
  assert (HK : forall k ev, 2 <= k < 2 + length tr -> nth_error T k = Some ev -> thread_kind ev /\ ev <> (0, Join 1)).
  { intros k ev Hk Hev. replace k with (2 + (k - 2)) in Hev by lia. rewrite NT in Hev by lia. apply nth_error_In in Hev. split.
    - apply (kinds acts w). rewrite E. apply in_or_app. left. exact Hev.
    - intros ->. contradiction. }
  assert (NE : p <> q) by (intros ->; congruence).
  destruct (Nat.lt_ge_cases p q) as [Hl|Hl].
  - exists (2 + p), (2 + q). split; [lia|]. exists 0, 1, x, y. rewrite !NT by lia. repeat split; auto; try discriminate.
    intros HB. destruct (hb_same T _ HK _ _ HB) as (t & a1 & b1 & E1 & E2); [lia|lia|]. rewrite NT in E1, E2 by lia. congruence.
  - exists (2 + q), (2 + p). split; [lia|]. exists 1, 0, y, x. rewrite !NT by lia. repeat split; auto; try discriminate.
    + unfold conflicting in *. rewrite orb_comm, (andb_comm (atomic y)). exact HC.
    + intros HB. destruct (hb_same T _ HK _ _ HB) as (t & a1 & b1 & E1 & E2); [lia|lia|]. rewrite NT in E1, E2 by lia. congruence.
Qed.
(** programs that join before they leave successfully *)
Fixpoint joins (p : prog A) : Prop :=
  match p with
  | PRead k | PRun k => forall b, joins (k b)
  | PSet p | PNotify p | PEmplace p | PClear p => joins p
  | PJoin _ => True
  | PLeave a => ~ good a
  end.
Lemma left_joined acts : forall (w w' : shared A), srun acts w = Some w' -> (joins (w_prog w) \/ w_tm w = TEnded) -> w_tm w <> TNone ->
  forall a, w_prog w' = PLeave a -> good a -> w_tm w' = TEnded.
Proof.
  induction acts as [|x acts IH]; intros w w' HR HJ HT a HA HG; cbn [srun] in HR.
  - injection HR as <-. destruct HJ as [HJ|HJ]; [|exact HJ]. rewrite HA in HJ. contradiction.
  - destruct (sstep x w) as [w1|] eqn:ES; [|discriminate]. apply (IH w1 w' HR) with (a := a); [| |exact HA|exact HG].
    + unfold sstep in ES. destruct (stopped w); [discriminate|]. destruct x as [cut| | |].
      * unfold smain in ES. destruct (w_prog w) eqn:EP; cbn [joins] in HJ; try discriminate.
        1-5: (injection ES as <-; cbn; destruct HJ as [HJ|HJ]; [left; first [apply HJ|exact HJ]|right; try rewrite HJ; auto]).
        -- destruct (_ || _); [|discriminate]. injection ES as <-. cbn. destruct HJ as [HJ|HJ]; [left; apply HJ|auto].
        -- right. destruct (w_tm w); try discriminate; injection ES as <-; cbn; [contradiction|reflexivity].
      * destruct (timer_rank w w1 ES) as [_ E]. rewrite E. destruct HJ as [HJ|HJ]; [left; exact HJ|]. unfold stimer in ES. rewrite HJ in ES. discriminate.
      * destruct (w_tm w) eqn:ET; try discriminate. injection ES as <-. destruct HJ as [HJ|HJ]; [left; exact HJ|discriminate].
      * destruct (w_tm w) eqn:ET; try discriminate. injection ES as <-. destruct HJ as [HJ|HJ]; [left; exact HJ|discriminate].
    + unfold sstep in ES. destruct (stopped w); [discriminate|]. destruct x as [cut| | |].
      * unfold smain in ES. destruct (w_prog w); try discriminate; try (injection ES as <-; exact HT).
        -- injection ES as <-. cbn. destruct (w_tm w); auto; discriminate.
        -- destruct (_ || _); [|discriminate]. injection ES as <-. exact HT.
        -- destruct (w_tm w); try discriminate; injection ES as <-; cbn; auto; discriminate.
      * unfold stimer in ES. destruct (w_tm w); try discriminate; try (destruct (Nat.ltb j n)); injection ES as <-; cbn;
          try destruct (w_done w); discriminate.
      * destruct (w_tm w); try discriminate. injection ES as <-. discriminate.
      * destruct (w_tm w); try discriminate. injection ES as <-. discriminate.
Qed.
Lemma always_races acts p n f a : guarded false p -> touches good p -> joins p ->
  leaves acts (s_init true p n f) a -> good a -> exists i j, race_on (s_prefix true ++ strace acts (s_init true p n f)) SDone i j.
Proof.
  intros HG HT HJ (w' & HR & HU & HP) HO. set (w := s_init true p n f) in *.
  assert (TM : w_tm w' = TEnded) by (apply (left_joined acts w w' HR) with (a := a); cbn; auto; discriminate).
  assert (DN : w_done w' = true) by (apply (ended_done acts w w' HR); [discriminate|rewrite TM; reflexivity]).
  assert (RD : In (1, Acc Rd SDone) (strace acts w)) by (apply (timer_reads acts w w' HR); [left; reflexivity|exact TM]).
  assert (PAIR := pair_races acts w w' a false HR HG HP ltac:(discriminate)).
  destruct (done_by acts w w' HR eq_refl DN) as [H|H].
  - apply (PAIR Wr Rd SDone H RD). reflexivity.
  - destruct (main_touches good acts w w' HR HT a HP HO) as [b Hb]. apply (PAIR b Wr SDone Hb H). destruct b; try reflexivity.
    all: exfalso; clear - Hb; revert Hb; generalize w; clear; induction acts as [|x acts IH]; intros w Hb; cbn [strace] in Hb; [destruct Hb|].
    all: destruct (sstep x w) as [w1|]; [|destruct Hb]; apply in_app_or in Hb; destruct Hb as [Hb|Hb]; [|exact (IH w1 Hb)].
    all: destruct x as [cut| | |]; cbn [step_accesses] in Hb; try destruct Hb; apply in_map_iff in Hb; destruct Hb as (y & E & Hb); try discriminate E; injection E as ->.
    all: unfold main_accesses in Hb; destruct (w_prog w); try (destruct (w_tm w)); cbn in Hb; repeat (destruct Hb as [Hb|Hb]; [discriminate|]); exact Hb.
Qed.
End Race.
