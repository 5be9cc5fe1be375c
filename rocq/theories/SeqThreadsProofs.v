(** The programs of SeqThreads.v are the flows of SeqFlow.v; interleavings refine them. *)
From Coq Require Import String List Bool NArith QArith Arith Lia.
From Verif Require Import Criterion Config SeqFlow Trace SeqThreads SeqThreadsSpec.
Import ListNotations.
Local Open Scope list_scope.
Local Open Scope nat_scope.

Section P.
Context {Stim Gen : Type}.
Notation env := (env Stim Gen).
Notation left_over := (left_over Stim Gen).

Definition ofst (s : @st Stim Gen) : left_over := mkLeft (s_chk s) (s_res s) (s_gen s).
Definition remst (o : outcome (@st Stim Gen)) : outcome left_over :=
  match o with
  | Returned s => Returned (ofst s)
  | Thrown => Thrown | Terminated => Terminated | Diverged => Diverged | AssertFailed => AssertFailed
  end.
Definition resume (al : nat -> bool -> prog (outcome left_over) -> outcome left_over) (x : outcome (@st Stim Gen) + outcome (@st Stim Gen))
    (next : left_over -> prog (outcome left_over)) : outcome left_over :=
  match x with
  | inl (Returned s) => al (s_t s) (s_done s) (next (ofst s))
  | inl o | inr o => remst o
  end.

(** the program does not look at what the timeout thread does: [e'] is the environment of the flow *)
Variables (e : env) (fi : option nat) (no : nat -> bool) (c : config).
Notation e' := (timed e fi no).
Notation al := (alone (fired e' c) (interrupted e' c)).
Lemma same_ctor k : ctor_throws e' c k = ctor_throws e c k.
Proof. reflexivity. Qed.

Lemma resume_bind x f next1 next2 :
  (forall s, al (s_t s) (s_done s) (next1 (ofst s)) = resume al (f s) next2) ->
  resume al x next1 = resume al (bind x f) next2.
Proof. intros H. destruct x as [[s| | | |]|o]; cbn; auto. Qed.

Lemma sim_loop_eq fuel exit old : forall t q stm r g,
  al t false (sim_loop fuel e c q stm r g exit old) =
  match simLoop fuel e' c t q stm r g with
  | LDone t' q' stm' r' g' => al t' false (exit q' stm' r' g')
  | LNoInfo q' stm' r' g' => if hasTimeout c then Terminated else Returned (mkLeft (old ++ [mkChecker KSim q' stm']) r' g')
  | LDiverged => Diverged
  end.
Proof.
  induction fuel as [|f IH]; intros t q stm r g; cbn [sim_loop simLoop]; [reflexivity|].
  destruct (simulationsFinished c r); [reflexivity|]. unfold if_not_done. cbn [alone orb].
  destruct (fired e' c t); [reflexivity|]. change (e_gen e' g) with (e_gen e g). destruct (e_gen e g) as [[x g']|]; [|reflexivity]. cbn [alone].
  change (e_sim e' x) with (e_sim e x).
  change (set_counts (r_started r + 1) (r_performed r + 1) r) with
    (set_counts (r_started (set_counts (r_started r + 1) (r_performed r) r)) (r_performed (set_counts (r_started r + 1) (r_performed r) r) + 1)
       (set_counts (r_started r + 1) (r_performed r) r)).
  destruct (if interrupted e' c (S t) then q else scrit (e_sim e x)); try apply IH; try reflexivity.
Qed.

Lemma sim_part_eq fuel next s t : 
  al t false (sim_part fuel e c s next) = resume al (seqSim fuel e' c (mkSt t false (f_chk s) (f_res s) (f_gen s))) next.
Proof.
  unfold sim_part, seqSim. destruct (runSimulationChecker (exec c)); cbn [negb]; [|destruct s; reflexivity].
  rewrite ?same_ctor. destruct (ctor_throws e c KSim); [unfold leave_by_exception; destruct (hasTimeout c); reflexivity|].
  cbn [alone]. rewrite sim_loop_eq. cbn [s_t s_res s_gen s_done s_chk]. destruct (simLoop _ _ _ _ _ _ _ _) as [t' q' stm' r' g'|q' stm' r' g'|].
  - cbn [resume s_t s_done ofst s_chk s_res s_gen orb].
    assert (EC : (if criterion_eqb (r_eq r') NotEquivalent then
                    set_cex (if storeCEXinput (sim c) then stm' else r_cexIn r') (if storeCEXoutput (sim c) then stm' else r_cexOut r') r' else r') =
                 match r_eq r' with NotEquivalent => set_cex (if storeCEXinput (sim c) then stm' else r_cexIn r')
                    (if storeCEXoutput (sim c) then stm' else r_cexOut r') r' | _ => r' end) by (destruct (r_eq r'); reflexivity).
    rewrite EC. destruct (criterion_eqb (r_eq r') NotEquivalent), (onlySimulationCheckerConfigured c && simulationsFinished c r'); reflexivity.
  - cbn. destruct (hasTimeout c); reflexivity.
  - reflexivity.
Qed.

Lemma exact_part_eq k en v th s t d next :
  al t d (exact_part k en v th e c s next) = resume al (seqExact k en v th e' c (mkSt t d (f_chk s) (f_res s) (f_gen s))) next.
Proof.
  unfold exact_part, seqExact. destruct en; cbn [negb]; [|destruct s; reflexivity].
  unfold if_not_done. cbn [alone]. unfold reads_done. cbn [s_t s_done tick].
  destruct (d || fired e' c t); [destruct s; reflexivity|].
  rewrite ?same_ctor. destruct (ctor_throws e c k); [unfold leave_by_exception; destruct (hasTimeout c); reflexivity|]. cbn [alone].
  destruct (d || fired e' c (S t)); [destruct s; reflexivity|].
  destruct th; [unfold leave_by_exception; destruct (hasTimeout c); reflexivity|]. cbn [alone].
  destruct (interrupted e' c (S (S t))); [destruct s; reflexivity|]. destruct v, s; reflexivity.
Qed.

Lemma zx_part_eq s t d : al t d (zx_part e c s) = resume al (seqZX e' c (mkSt t d (f_chk s) (f_res s) (f_gen s))) at_end.
Proof.
  unfold zx_part, seqZX. cbn [e_transformable e_zx_perm_ok e_ancilla e_zx e_ndebug timed]. destruct (runZXChecker (exec c)); cbn [negb]; [|destruct s; reflexivity].
  unfold if_not_done. cbn [alone]. unfold reads_done. cbn [s_t s_done tick].
  destruct (d || fired e' c t); [destruct s; reflexivity|].
  destruct (e_transformable e).
  - destruct (e_zx_perm_ok e); cbn [negb]; [|reflexivity]. cbn [alone].
    destruct (d || fired e' c (S t)); [destruct s; reflexivity|]. cbn [alone].
    destruct (if interrupted e' c (S (S t)) then NoInformation else zcrit (e_ancilla e) (e_zx e)); destruct s as [chk res gen]; cbn;
      try reflexivity; destruct (criterion_eqb (r_eq res) _); cbn; try reflexivity;
      destruct (onlyZXCheckerConfigured c); cbn; try reflexivity; destruct (e_ndebug e); reflexivity.
  - destruct (onlyZXCheckerConfigured c); destruct s; reflexivity.
Qed.

Lemma resume_end x : resume al x at_end = match x with inl o | inr o => remst o end.
Proof. destruct x as [[s| | | |]|o]; reflexivity. Qed.
Lemma finish_remains x : remains (finish_flow c x) = match x with inl o | inr o => remst o end.
Proof. destruct x as [[]|[]]; reflexivity. Qed.

Lemma sequential_eq fuel m : m_cfg m = c -> m_done m = false ->
  al 0 false (sequential_prog fuel e c (of_mgr m)) = remains (checkSequential fuel e' m).
Proof.
  intros HC HD. unfold sequential_prog, checkSequential. rewrite HC, HD, finish_remains, <- resume_end.
  rewrite sim_part_eq. unfold of_mgr. cbn [f_chk f_res f_gen].
  apply resume_bind. intros s1. rewrite exact_part_eq. destruct s1 as [t1 d1 k1 r1 g1]; cbn [s_t s_done ofst f_chk f_res f_gen s_chk s_res s_gen].
  apply resume_bind. intros s2. rewrite exact_part_eq. destruct s2 as [t2 d2 k2 r2 g2]; cbn [s_t s_done ofst f_chk f_res f_gen s_chk s_res s_gen].
  apply resume_bind. intros s3. rewrite zx_part_eq. destruct s3 as [t3 d3 k3 r3 g3]; reflexivity.
Qed.

Lemma symbolic_eq m : m_cfg m = c -> m_done m = false ->
  al 0 false (symbolic_prog e c (of_mgr m)) = remains (checkSymbolic e' m).
Proof.
  intros HC HD. unfold symbolic_prog, checkSymbolic. rewrite HC, HD, finish_remains.
  cbn [e_transformable e_zx_perm_ok e_ancilla e_zx timed]. unfold if_not_done. cbn [alone orb]. unfold reads_done. cbn [s_t s_done tick orb].
  destruct (fired e' c 0); [reflexivity|]. destruct (e_transformable e).
  - destruct (e_zx_perm_ok e); cbn [negb]; [|reflexivity]. cbn [alone orb].
    destruct (fired e' c 1); [reflexivity|]. cbn [alone]. destruct (interrupted e' c 2); reflexivity.
  - cbn [alone]. destruct (hasTimeout c); reflexivity.
Qed.
End P.

(** ** interleavings *)
Section R.
Context {A : Type}.
Notation shared := (shared A).

Lemma alone_ext (p : prog A) : forall f1 c1 f2 c2 t d, (forall i, t <= i -> f1 i = f2 i) -> (forall i, t <= i -> c1 i = c2 i) ->
  alone f1 c1 t d p = alone f2 c2 t d p.
Proof.
  induction p as [k IH|p IH|p IH|p IH|p IH|k IH|p IH|a]; intros f1 c1 f2 c2 t d HF HC; cbn [alone]; auto.
  - rewrite (HF t) by lia. apply IH; intros i Hi; [apply HF|apply HC]; lia.
  - rewrite (HC t) by lia. apply IH; intros i Hi; [apply HF|apply HC]; lia.
Qed.

(** after the timeout thread has set [done] *)
Lemma run_fired acts : forall (w w' : shared) t d, srun acts w = Some w' -> w_done w = true -> forall a, w_prog w' = PLeave a ->
  exists cut, a = alone (fun _ => true) cut t d (w_prog w).
Proof.
  induction acts as [|x acts IH]; intros w w' t d HR HD a HA; cbn [srun] in HR.
  - injection HR as <-. rewrite HA. exists (fun _ => false). reflexivity.
  - destruct (sstep x w) as [w1|] eqn:ES; [|discriminate]. unfold sstep in ES.
    destruct (stopped w) eqn:EST; [discriminate|]. destruct x as [cut| | |].
    + unfold smain in ES. destruct (w_prog w) as [k|p|p|p|p|k|p|b] eqn:EP.
      * injection ES as <-. destruct (IH _ _ (S t) d HR HD _ HA) as (ct & E). exists ct. cbn in E |- *. rewrite E, HD. destruct d; reflexivity.
      * injection ES as <-. destruct (IH _ _ t true HR eq_refl _ HA) as (ct & E). exists ct. exact E.
      * injection ES as <-. destruct (IH _ _ t d HR HD _ HA) as (ct & E). exists ct. exact E.
      * injection ES as <-. destruct (IH _ _ t d HR HD _ HA) as (ct & E). exists ct. exact E.
      * injection ES as <-. destruct (IH _ _ t d HR HD _ HA) as (ct & E). exists ct. exact E.
      * destruct (negb cut || w_flag w (Nat.pred (w_len w))); [|discriminate]. injection ES as <-.
        destruct (IH _ _ (S t) d HR HD _ HA) as (ct & E). exists (fun i => if Nat.eqb i t then cut else ct i).
        cbn in E |- *. rewrite Nat.eqb_refl, E. apply alone_ext; [reflexivity|]. intros i Hi. destruct (Nat.eqb_spec i t); [lia|reflexivity].
      * destruct (w_tm w); try discriminate; injection ES as <-; destruct (IH _ _ t d HR HD _ HA) as (ct & E); exists ct; exact E.
      * discriminate.
    + assert (HP : w_prog w1 = w_prog w /\ w_done w1 = true).
      { unfold stimer in ES. destruct (w_tm w) as [| | | | | | | |j n| |]; try discriminate; try (injection ES as <-; cbn; auto; fail).
        destruct (Nat.ltb j n); injection ES as <-; cbn; auto. }
      destruct HP as [HP1 HP2]. destruct (IH _ _ t d HR HP2 _ HA) as (ct & E). exists ct. rewrite <- HP1. exact E.
    + destruct (w_tm w); try discriminate. injection ES as <-. exact (IH _ _ t d HR HD _ HA).
    + destruct (w_tm w); try discriminate. injection ES as <-. exact (IH _ _ t d HR HD _ HA).
Qed.

(** only checkers appended in this call are run *)
Fixpoint own_only (b : bool) (p : prog A) : Prop :=
  match p with
  | PRead k => forall x, own_only b (k x)
  | PRun k => b = true /\ forall x, own_only b (k x)
  | PSet p | PNotify p | PJoin p => own_only b p
  | PEmplace p => own_only true p
  | PClear p => own_only false p
  | PLeave _ => True
  end.
Definition fires (fire : option nat) (i : nat) : bool := match fire with None => false | Some f => Nat.leb f i end.
Definition unfired (t : tpc) : bool := match t with TSignal _ _ => false | _ => true end.

Lemma run_unfired acts : forall (w w' : shared) t d b, srun acts w = Some w' -> w_done w = d -> unfired (w_tm w) = true ->
  own_only b (w_prog w) -> (b = true -> w_flag w (Nat.pred (w_len w)) = false) -> forall a, w_prog w' = PLeave a ->
  exists fire notice, (w_tm w = TNone -> fire = None) /\ (forall f, fire = Some f -> t <= f) /\
    a = alone (fires fire) (fun i => fires fire i && notice i) t d (w_prog w).
Proof.
  induction acts as [|x acts IH]; intros w w' t d b HR HD HU HO HF a HA; cbn [srun] in HR.
  - injection HR as <-. rewrite HA. exists None, (fun _ => false). split; [reflexivity|]. split; [discriminate|reflexivity].
  - destruct (sstep x w) as [w1|] eqn:ES; [|discriminate]. unfold sstep in ES.
    destruct (stopped w) eqn:EST; [discriminate|]. destruct x as [cut| | |].
    + unfold smain in ES. destruct (w_prog w) as [k|p|p|p|p|k|p|y] eqn:EP; cbn [own_only] in HO.
      * injection ES as <-. destruct (IH _ _ (S t) d b HR HD HU (HO _) HF _ HA) as (fi & no & H1 & H2 & E). exists fi, no.
        split; [exact H1|]. split; [intros f Hf; specialize (H2 f Hf); lia|].
        assert (FT : fires fi t = false).
        { destruct fi as [f|]; [|reflexivity]. cbn. apply Nat.leb_gt. specialize (H2 f eq_refl). lia. }
        cbn [alone]. rewrite FT, orb_false_r. cbn [w_prog w_done] in E. rewrite HD in E. exact E.
      * injection ES as <-. destruct (IH _ _ t true b HR eq_refl HU HO HF _ HA) as (fi & no & E). exists fi, no. exact E.
      * injection ES as <-. destruct (IH _ _ t d b HR HD) with (a := a) as (fi & no & H1 & E); cbn; auto; [destruct (w_tm w); auto|].
        exists fi, no. split; [|exact E]. intros HN. apply H1. cbn. rewrite HN. reflexivity.
      * injection ES as <-. destruct (IH _ _ t d true HR HD HU HO) with (a := a) as (fi & no & E); auto.
        -- intros _. cbn. unfold upd_flag. rewrite Nat.eqb_refl. reflexivity.
        -- exists fi, no. exact E.
      * injection ES as <-. destruct (IH _ _ t d false HR HD HU HO) with (a := a) as (fi & no & E); auto; [discriminate|].
        exists fi, no. exact E.
      * destruct HO as [-> HO]. rewrite (HF eq_refl), orb_false_r in ES. destruct cut; [discriminate|]. cbn in ES. injection ES as <-.
        destruct (IH _ _ (S t) d true HR HD HU (HO _) HF _ HA) as (fi & no & H1 & H2 & E). exists fi, no.
        split; [exact H1|]. split; [intros f Hf; specialize (H2 f Hf); lia|].
        assert (FT : fires fi t = false).
        { destruct fi as [f|]; [|reflexivity]. cbn. apply Nat.leb_gt. specialize (H2 f eq_refl). lia. }
        cbn [alone]. rewrite FT. cbn [andb]. exact E.
      * destruct (w_tm w) eqn:ET; try discriminate; injection ES as <-;
          (destruct (IH _ w' t d b HR HD) with (a := a) as (fi & no & E);
             [reflexivity|exact HO|exact HF|exact HA|exists fi, no; exact E]).
      * discriminate.
    + unfold stimer in ES. assert (NT : w_tm w <> TNone) by (intros F; rewrite F in ES; discriminate).
      destruct (w_tm w) as [| | | | | | | |j n| |] eqn:ET; try discriminate.
      6:{ (* the timeout thread sets [done] *)
        injection ES as <-. destruct (run_fired acts _ _ t d HR eq_refl a HA) as (ct & E). exists (Some t), ct.
        split; [intros; discriminate|]. split; [intros f Hf; injection Hf as ->; lia|].
        cbn [w_prog] in E. rewrite E. apply alone_ext; intros i Hi; cbn; apply Nat.leb_le in Hi; rewrite Hi; reflexivity. }
      all: injection ES as <-;
        match type of HR with srun _ ?w1 = _ =>
          assert (HU1 : unfired (w_tm w1) = true) by (cbn; try destruct (w_done w); reflexivity);
          destruct (IH w1 w' t d b HR HD HU1 HO HF a HA) as (fi & no & H1 & E);
          exists fi, no; split; [intros; discriminate|exact E] end.
    + destruct (w_tm w) eqn:ET; try discriminate. injection ES as <-.
      destruct (IH (set_tm TWoken w) w' t d b HR HD eq_refl HO HF a HA) as (fi & no & _ & E). exists fi, no. split; [intros; discriminate|exact E].
    + destruct (w_tm w) eqn:ET; try discriminate. injection ES as <-.
      destruct (IH (set_tm TLate w) w' t d b HR HD eq_refl HO HF a HA) as (fi & no & _ & E). exists fi, no. split; [intros; discriminate|exact E].
Qed.
End R.

Section Own.
Context {Stim Gen : Type}.
Notation env := (env Stim Gen).
Notation left_over := (left_over Stim Gen).
Variables (e : env) (c : config).
Notation act := (prog (outcome left_over)).

Lemma own_weaken {A} (p : prog A) : own_only false p -> own_only true p.
Proof. induction p as [k IH|p IH|p IH|p IH|p IH|k IH|p IH|a]; cbn; auto. intros [H _]. discriminate. Qed.
Lemma own_any {A} (p : prog A) b : own_only false p -> own_only b p.
Proof. destruct b; [apply own_weaken|auto]. Qed.

Lemma own_at_end b (s : left_over) : own_only b (at_end s).
Proof. exact I. Qed.
Lemma own_sim fuel s (next : left_over -> act) : (forall s, own_only false (next s)) -> own_only false (sim_part fuel e c s next).
Proof.
  intros HN. unfold sim_part. destruct (negb _); [apply HN|]. destruct (ctor_throws e c KSim); [exact I|]. cbn [own_only].
  match goal with |- own_only true (sim_loop _ _ _ ?q0 ?stm0 ?r0 ?g0 ?ex0 ?old0) =>
    assert (HE : forall qq ss rr gg, own_only true (ex0 qq ss rr gg)); [|generalize q0 stm0 r0 g0; revert HE; generalize ex0] end.
  { intros qq ss rr gg. cbn zeta. destruct (criterion_eqb (r_eq rr) NotEquivalent), (onlySimulationCheckerConfigured c && simulationsFinished c rr);
      cbn [announce own_only]; apply own_any, HN. }
  intros ex HE. induction fuel as [|f IH]; intros q stm r g; cbn [sim_loop]; [exact I|].
  destruct (simulationsFinished c r); [apply HE|]. unfold if_not_done. cbn [own_only]. intros [|]; [apply HE|].
  destruct (e_gen e g) as [[x g']|]; [|exact I]. cbn [own_only]. split; [reflexivity|]. intros cut. cbn zeta.
  destruct (if cut then q else _); first [apply IH|apply HE|cbn; auto].
Qed.
Lemma own_exact k en v th s (next : left_over -> act) : (forall s, own_only false (next s)) -> own_only false (exact_part k en v th e c s next).
Proof.
  intros HN. unfold exact_part. destruct (negb en); [apply HN|]. unfold if_not_done. cbn [own_only]. intros [|]; [apply HN|].
  destruct (ctor_throws e c k); [exact I|]. cbn [own_only]. intros [|]; [apply own_any, HN|]. destruct th; [exact I|].
  cbn [own_only]. split; [reflexivity|]. intros cut. cbn zeta. destruct (if cut then NoInformation else mcrit v); cbn [announce own_only]; apply own_any, HN.
Qed.
Lemma own_zx s : own_only false (zx_part e c s).
Proof.
  unfold zx_part. destruct (negb (runZXChecker (exec c))); [exact I|]. unfold if_not_done. cbn [own_only]. intros [|]; [exact I|].
  destruct (e_transformable e); [|destruct (onlyZXCheckerConfigured c); exact I]. destruct (negb (e_zx_perm_ok e)); [exact I|].
  cbn [own_only]. intros [|]; [exact I|]. cbn [own_only]. split; [reflexivity|]. intros cut. cbn [announce own_only].
  destruct (if cut then NoInformation else _); try exact I; destruct (_ && _ && _); exact I.
Qed.
Lemma own_sequential fuel s : own_only false (sequential_prog fuel e c s).
Proof. apply own_sim. intros s1. apply own_exact. intros s2. apply own_exact. intros s3. apply own_zx. Qed.
Lemma own_symbolic s : own_only false (symbolic_prog e c s).
Proof.
  unfold symbolic_prog, if_not_done. cbn [own_only]. intros [|]; [exact I|]. destruct (e_transformable e); [|exact I].
  destruct (negb _); [exact I|]. cbn [own_only]. intros [|]; [exact I|]. cbn [own_only]. split; [reflexivity|]. intros cut. exact I.
Qed.
End Own.

Section Refine.
Context {Stim Gen : Type}.
Notation env := (env Stim Gen).

Lemma timed_fired (e : env) c fire notice : (hasTimeout c = false -> fire = None) ->
  (forall i, fires fire i = fired (timed e fire notice) c i) /\
  (forall i, fires fire i && notice i = interrupted (timed e fire notice) c i).
Proof.
  intros H. unfold interrupted, fired, fires. cbn.
  destruct (hasTimeout c) eqn:E; cbn; [split; reflexivity|]. rewrite (H eq_refl). split; reflexivity.
Qed.

Lemma refine_gen (e : env) c (p : prog (outcome (left_over Stim Gen))) n f acts o : own_only false p ->
  leaves acts (s_init (hasTimeout c) p n f) o ->
  exists fire notice, o = alone (fired (timed e fire notice) c) (interrupted (timed e fire notice) c) 0 false p.
Proof.
  intros HO (w' & HR & _ & HP).
  destruct (run_unfired acts (s_init (hasTimeout c) p n f) w' 0 false false) with (a := o) as (fire & notice & H1 & _ & E); auto.
  - cbn. destruct (hasTimeout c); reflexivity.
  - discriminate.
  - exists fire, notice. rewrite E. cbn [w_prog s_init].
    destruct (timed_fired e c fire notice) as [T1 T2].
    { intros HT. apply H1. cbn. rewrite HT. reflexivity. }
    apply alone_ext; intros i _; auto.
Qed.

Lemma refine_sequential (e : env) c fuel m n f acts o : m_cfg m = c -> m_done m = false ->
  leaves acts (s_init (hasTimeout c) (sequential_prog fuel e c (of_mgr m)) n f) o ->
  exists fire notice, o = remains (checkSequential fuel (timed e fire notice) m).
Proof.
  intros HC HD HL. destruct (refine_gen e c _ n f acts o (own_sequential e c fuel _) HL) as (fire & notice & E).
  exists fire, notice. rewrite <- (sequential_eq e fire notice c fuel m HC HD). exact E.
Qed.
Lemma refine_symbolic (e : env) c m n f acts o : m_cfg m = c -> m_done m = false ->
  leaves acts (s_init (hasTimeout c) (symbolic_prog e c (of_mgr m)) n f) o ->
  exists fire notice, o = remains (checkSymbolic (timed e fire notice) m).
Proof.
  intros HC HD HL. destruct (refine_gen e c _ n f acts o (own_symbolic e c _) HL) as (fire & notice & E).
  exists fire, notice. rewrite <- (symbolic_eq e fire notice c m HC HD). exact E.
Qed.
End Refine.
