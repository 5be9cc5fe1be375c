(** Lemmas for C84, continued: where verdicts come from, what a run leaves behind. *)
From Coq Require Import String List Bool NArith QArith Arith Lia.
From Verif Require Import Criterion Config SeqFlow SeqSpec ParFlow ParSpec ParProofs ParProofs2 ParProofs3 ParProofs4 ParProofs5 ParProofs6 ParProofs7 ParAgain ParAgainSpec ParAgainProofs.
Import ListNotations.
Local Open Scope list_scope.
Local Open Scope nat_scope.

Section Proofs.
Context {Stim Gen : Type}.
Notation env := (env Stim Gen).
Notation pst := (pst Stim Gen).
Notation slot := (slot Stim).
Implicit Types (e : env) (s : pst) (c : config) (x : slot) (g : Gen).

Ltac simp := cbn [set_main set_next set_pres set_slot set_queue set_pgen add_log begin_signal set_pdone
   p_cfg p_slots p_queue p_done p_main p_next p_res p_gen p_log phase_signal] in *.

Definition weak (q : criterion) : Prop := q = NoInformation \/ q = ProbablyEquivalent \/ q = ProbablyNotEquivalent.
Definition outcome_of (d : decision) : results Stim := match d with Stop r | Continue r | Restart r => r end.
Lemma handle_src c (r : results Stim) k q st :
  let q' := r_eq (outcome_of (handle c r k q st)) in q' = r_eq r \/ weak q' \/ (q' = q /\ (k <> KSim \/ q = NotEquivalent)).
Proof.
  cbn zeta. unfold handle, weak.
  assert (S : forall r1 : results Stim,
     (r_eq r1 = r_eq r \/ r_eq r1 = ProbablyEquivalent) ->
     let q' := r_eq (outcome_of (if simulationsFinished c r1 then if onlySimulationCheckerConfigured c then Stop r1
            else if is_ce (r_eq r1) ProbablyNotEquivalent then Stop (set_eq NoInformation r1) else Continue r1
          else if N.ltb (r_started r1) (maxSims (sim c)) then Restart (set_counts (r_started r1 + 1) (r_performed r1) r1) else Continue r1)) in
     q' = r_eq r \/ (q' = NoInformation \/ q' = ProbablyEquivalent \/ q' = ProbablyNotEquivalent)).
  { intros r1 H. cbn zeta. destruct (simulationsFinished c r1); [destruct (onlySimulationCheckerConfigured c); [|destruct (is_ce (r_eq r1) ProbablyNotEquivalent)]|destruct (N.ltb _ _)];
    cbn [outcome_of set_eq set_counts r_eq]; destruct H as [H|H]; rewrite ?H; auto. }
  assert (S2 : let r1 := set_counts (r_started r) (r_performed r + 1) r in
     let r2 := if is_ce (r_eq r1) NoInformation then set_eq ProbablyEquivalent r1 else r1 in r_eq r2 = r_eq r \/ r_eq r2 = ProbablyEquivalent).
  { cbn zeta. destruct (is_ce _ _); cbn; auto. }
  pose proof (S _ S2) as S3. cbn zeta in S3.
  destruct q; destruct k; cbn [outcome_of]; try (destruct S3 as [S3|S3]; [left; exact S3|right; left; exact S3]; fail);
    try (destruct (onlyZXCheckerConfigured c); cbn [outcome_of]; auto; fail);
    try (cbn [set_eq set_counts set_cex r_eq outcome_of]; right; right; split; [reflexivity|]; first [left; discriminate|right; reflexivity]);
    try (cbn [set_eq r_eq outcome_of]; auto; fail).
  destruct (is_ce (r_eq r) ProbablyEquivalent); [destruct (simulationsFinished c r)|destruct (is_ce (r_eq r) NoInformation); [destruct (onlyZXCheckerConfigured c)|]];
    cbn [set_eq r_eq outcome_of]; auto.
Qed.

(** *** verdicts have a source *)
Section Sources.
Variable e : env.
Variable K : kind -> Prop.
Variable P : kind -> criterion -> Prop.
Hypothesis P_none : forall k, P k NoInformation.
Variable D : Stim -> Prop.
Hypothesis D_drawn : forall y, drawable e y -> D y.
Hypothesis P_run : forall k q, K k -> computes e D k q -> P k q.

Definition SrcSlot x : Prop :=
  (forall ck, sl_chk x = Some ck -> (K (k_kind ck) /\ P (k_kind ck) (k_eq ck)) /\ (forall y, k_stim ck = Some y -> D y)) /\ (forall k, sl_w x = WStart k -> K k).
Definition SrcInv s : Prop :=
  (forall i x, nth_error (p_slots s) i = Some x -> SrcSlot x) /\
  (forall ks, p_main s = MLaunch ks -> forall k, In k ks -> K k) /\
  (weak (r_eq (p_res s)) \/ exists k, K k /\ P k (r_eq (p_res s)) /\ (k <> KSim \/ r_eq (p_res s) = NotEquivalent)).

Lemma src_move d x x' : SrcSlot x -> wmove e d x x' -> SrcSlot x'.
Proof.
  intros [A B] M.
  assert (N : forall (o : option (checker Stim)) f w b, (forall ck, o = Some ck -> (K (k_kind ck) /\ P (k_kind ck) (k_eq ck)) /\ (forall y, k_stim ck = Some y -> D y)) ->
     (forall k, w <> WStart k) -> SrcSlot (mkSlot o f w b)).
  { intros o f w b H1 H2. split; cbn; [exact H1|]. intros k E. destruct (H2 _ E). }
  destruct M; unfold slot_w; apply N; try (intros ? E; discriminate); try exact A; try (intros k0; destruct k; discriminate); try (intros k0; discriminate).
  - intros ck E. injection E as <-. cbn. split; [split; [apply B; exact H|apply P_none]|discriminate].
  - intros ck0 E. injection E as <-. cbn. split; [exact (proj1 (A _ H0))|]. intros y E. injection E as <-. apply D_drawn. assumption.
  - intros ck0 E. injection E as <-. destruct (A ck H0) as [[K0 P0] S0]. rewrite (stopped_run_stim _ _ _ H3).
    destruct (stopped_run_stays _ _ _ H3) as [E1 [E2|[E2 E3]]]; (split; [split; [congruence|]|exact S0]).
    + rewrite E1, E2. exact P0.
    + rewrite E3. apply P_none.
  - intros ck0 E. injection E as <-. exact (A _ H0).
  - intros ck0 E. injection E as <-. cbn. destruct (A ck H0) as [[K0 _] S0]. split; [|exact S0]. split; [exact K0|]. unfold natural. destruct (k_kind ck) eqn:Ek.
    + destruct (k_stim ck) as [y|] eqn:Es; [|apply P_none]. apply P_run; [exact K0|]. cbn. exists y. auto.
    + apply P_run; [exact K0|]. cbn. auto.
    + apply P_run; [exact K0|]. reflexivity.
    + apply P_run; [exact K0|]. reflexivity.
  - intros ck0 E. injection E as <-. cbn. destruct (A ck H0) as [[K0 P0] S0]. split; [|exact S0]. split; [exact K0|]. destruct (k_kind ck); try exact P0. apply P_none.
Qed.

Lemma src_step a s s' : SrcInv s -> astep e a s = Some s' -> SrcInv s'.
Proof.
  intros (A & B & DD) H.
  assert (U : forall i x x' : _, nth_error (p_slots s) i = Some x -> SrcSlot x' -> forall j y, nth_error (upd (p_slots s) i x') j = Some y -> SrcSlot y).
  { intros i x x' Hx Hx' j y Hy. destruct (Nat.eq_dec i j) as [->|N].
    - rewrite (upd_same _ _ _ _ Hx) in Hy. now injection Hy as <-.
    - rewrite upd_other in Hy by assumption. eapply A; eauto. }
  assert (W : forall i, again_worker e i s = Some s' \/ abort_step i s = Some s' -> SrcInv s').
  { intros i HH. destruct (again_moves _ _ _ _ HH) as (EL & x & Hx & [->|[(-> & _)|(x' & M & E & _ & _ & E3 & _ & E5 & _)]]).
    - split; [exact A|]. split; [discriminate|exact DD].
    - split; [exact A|]. split; [discriminate|exact DD].
    - unfold SrcInv. rewrite E, E3, E5. split; [|split; assumption]. intros j y. eapply U; eauto. eapply src_move; eauto. }
  destruct a as [| |i|i]; cbn in H.
  - unfold main_step in H. destruct (p_main s) as [[|k ks]| | j | | | | | | |] eqn:EM; try discriminate.
    + injection H as <-. split; [exact A|]. split; [discriminate|exact DD].
    + destruct (nth_error (p_slots s) (p_next s)) as [y|] eqn:Ey; injection H as <-; simp.
      * split; [|split].
        -- simp. intros j z. eapply U; [exact Ey|]. destruct (A _ _ Ey) as [A1 A2]. split; cbn; [exact A1|]. intros k0 E. injection E as <-. apply (B _ eq_refl). now left.
        -- simp. intros ks' E. injection E as <-. intros k' Hk'. apply (B _ eq_refl). now right.
        -- simp. destruct k; exact DD.
      * split; [exact A|]. split; [discriminate|exact DD].
    + destruct (p_queue s) as [|i q]; [discriminate|].
      destruct (nth_error (p_slots s) i) as [x|] eqn:Ex; [|injection H as <-; split; [exact A|split; [discriminate|exact DD]]].
      destruct (negb (is_idle x)); [discriminate|]. destruct (sl_exn x); [injection H as <-; split; [exact A|split; [discriminate|exact DD]]|].
      destruct (sl_chk x) as [ck|] eqn:Ec; [|injection H as <-; split; [exact A|split; [discriminate|exact DD]]].
      destruct (proj1 (A _ _ Ex) ck Ec) as [[K0 P0] _].
      pose proof (handle_src (p_cfg s) (p_res s) (k_kind ck) (k_eq ck) (k_stim ck)) as HS. cbn zeta in HS.
      assert (D' : weak (r_eq (outcome_of (handle (p_cfg s) (p_res s) (k_kind ck) (k_eq ck) (k_stim ck)))) \/
         exists k, K k /\ P k (r_eq (outcome_of (handle (p_cfg s) (p_res s) (k_kind ck) (k_eq ck) (k_stim ck)))) /\
           (k <> KSim \/ r_eq (outcome_of (handle (p_cfg s) (p_res s) (k_kind ck) (k_eq ck) (k_stim ck))) = NotEquivalent)).
      { destruct HS as [-> |[HS|[-> HS]]]; [exact DD|now left|]. right. exists (k_kind ck). auto. }
      destruct (handle (p_cfg s) (p_res s) (k_kind ck) (k_eq ck) (k_stim ck)) as [r|r|r] eqn:EH; injection H as <-; cbn [outcome_of] in D'.
      * split; [exact A|]. split; [discriminate|exact D'].
      * split; [exact A|]. split; [simp; rewrite EM; discriminate|exact D'].
      * split; [|split; [simp; rewrite EM; discriminate|exact D']]. simp. intros j z. eapply U; [exact Ex|]. destruct (A _ _ Ex) as [A1 A2]. split; cbn; [exact A1|].
        intros k0 E. injection E as <-. destruct (handle_restarted _ _ _ _ _ _ EH) as [_ HL].
        assert (k_kind ck = KSim) as <-; [|exact K0].
        clear -EH. unfold handle in EH. destruct (k_eq ck), (k_kind ck); try reflexivity; try discriminate; exfalso;
          repeat match type of EH with (if ?b then _ else _) = _ => destruct b; try discriminate end.
    + destruct (nth_error (p_slots s) j) as [y|] eqn:Ey; injection H as <-.
      * split; [|split; [discriminate|exact DD]]. simp. intros j' z. eapply U; [exact Ey|]. destruct (A _ _ Ey) as [A1 A2]. destruct (has_chk y); split; cbn; auto.
      * split; [exact A|]. split; [discriminate|exact DD].
    + destruct (forallb is_idle (p_slots s)); [|discriminate]. injection H as <-. split; [exact A|]. split; [|exact DD]. simp. destruct (forallb has_chk (p_slots s)); discriminate.
    + destruct (forallb is_idle (p_slots s)); [|discriminate]. injection H as <-. split; [exact A|]. split; [discriminate|exact DD].
  - unfold timeout_step in H. destruct (p_main s) eqn:EM; try discriminate. destruct (p_queue s); try discriminate.
    destruct (hasTimeout (p_cfg s)); [|discriminate]. injection H as <-. split; [exact A|]. split; [discriminate|exact DD].
  - eapply W; eauto.
  - eapply W; eauto.
Qed.

Lemma src_start c l r g :
  (forall k, In k (launches e c) -> K k) -> (forall ck b, In (Some ck, b) l -> (K (k_kind ck) /\ P (k_kind ck) (k_eq ck)) /\ (forall y, k_stim ck = Some y -> D y)) ->
  SrcInv (par_again e c l r g).
Proof.
  intros HK HL. split; [|split].
  - intros i x Hx. cbn [par_again p_slots] in Hx. rewrite nth_error_map in Hx.
    destruct (nth_error (resize (N.to_nat (effectiveThreads e c)) l) i) as [o|] eqn:Eo; [|discriminate]. injection Hx as <-.
    split; cbn; [|discriminate]. intros ck E. destruct o as [o b]. cbn in E. subst o. apply (HL ck b).
    apply nth_error_In in Eo. unfold resize in Eo. apply in_app_or in Eo. destruct Eo as [Eo|Eo]; [rewrite <- (firstn_skipn (N.to_nat (effectiveThreads e c)) l); apply in_or_app; now left|].
    apply repeat_spec in Eo. discriminate.
  - cbn. destruct (zx_alone_unsupported e c); [discriminate|]. intros ks E. injection E as <-. exact HK.
  - left. cbn. unfold weak. auto.
Qed.
End Sources.

(** one run: a definitive verdict has been found before, or is found now *)
Theorem again_source e c l r g s : reached_again e c l r g s -> definitive (r_eq (p_res s)) ->
  (exists ck b, In (Some ck, b) l /\ k_eq ck = r_eq (p_res s)) \/
  (exists k, (In k (launches e c) \/ exists ck b, In (Some ck, b) l /\ k_kind ck = k) /\
     computes e (fun y => drawable e y \/ exists ck b, In (Some ck, b) l /\ k_stim ck = Some y) k (r_eq (p_res s)) /\
     (k <> KSim \/ r_eq (p_res s) = NotEquivalent)).
Proof.
  intros [acts H] HD.
  set (K := fun k => In k (launches e c) \/ exists ck b, In (Some ck, b) l /\ k_kind ck = k).
  set (D := fun y => drawable e y \/ exists ck b, In (Some ck, b) l /\ k_stim ck = Some y).
  set (P := fun k q => q = NoInformation \/ (exists ck b, In (Some ck, b) l /\ k_eq ck = q) \/ (K k /\ computes e D k q)).
  assert (S0 : SrcInv K P D (par_again e c l r g)).
  { apply src_start.
    - intros k Hk. now left.
    - intros ck b Hin. split; [split; [right; eauto|]; right; left; eauto|]. intros y Hy. right. eauto. }
  assert (S1 : SrcInv K P D s).
  { eapply (arun_inv (SrcInv K P D) e acts); [|exact S0|exact H]. intros a t t'. apply src_step.
    - intros k. now left.
    - intros y Hy. now left.
    - intros k q Hk Hq. right. right. auto. }
  destruct S1 as (_ & _ & [Hw|(k & Hk & Hp & Hq)]).
  - exfalso. unfold weak in Hw. unfold definitive in HD. intuition congruence.
  - destruct Hp as [Hp|[Hp|Hp]].
    + exfalso. unfold definitive in HD. intuition congruence.
    + now left.
    + right. exists k. destruct Hp. auto.
Qed.

(** many runs with the same settings *)
Lemma par_cfg_flags e c : let c' := par_cfg e c in
  runAlternatingChecker (exec c') = runAlternatingChecker (exec c) /\ runConstructionChecker (exec c') = runConstructionChecker (exec c) /\
  zxOn e c' = zxOn e c /\ simOn c' = simOn c /\ sim c' = sim c.
Proof.
  cbn zeta. unfold par_cfg. destruct (zx_alone_unsupported e c); unfold par_cfg1, set_runs, zxOn, simOn; cbn; repeat split;
    destruct (runZXChecker (exec c)), (e_transformable e), (runSimulationChecker (exec c)), (N.ltb 0 (maxSims (sim c))); reflexivity.
Qed.
Lemma arun_cfg e acts s s' : arun e acts s = Some s' -> p_cfg s' = p_cfg s.
Proof.
  intros H. refine (arun_inv (fun t => p_cfg t = p_cfg s) e acts _ s s' eq_refl H). clear.
  intros a t t' E H. rewrite <- E. destruct a as [| |i|i].
  - exact (cfg_step e AMain _ _ H).
  - exact (cfg_step e ATimeout _ _ H).
  - destruct (again_moves _ _ _ _ (or_introl H)) as (_ & x & _ & [->|[(-> & _)|(x' & _ & _ & E1 & _)]]); auto.
  - exact (cfg_step e (AAbort i) _ _ H).
Qed.
Lemma launches_enabled e c k : In k (launches e c) -> enabled e c k.
Proof. intros H. apply in_launches in H. destruct k; cbn; tauto. Qed.

Lemma runs_src e c g pp s : sane_sims c -> enough_threads e c -> runs e c g pp s ->
  SrcInv (enabled e c) (fun k q => q = NoInformation \/ computes e (drawable e) k q) (drawable e) s /\
  (forall k, enabled e (p_cfg s) k -> enabled e c k).
Proof.
  intros Hs He R. induction R as [s R|s0 s R IH En Hf [acts H]].
  - apply (fresh_reached _ _ _ _ _ Hs He) in R. destruct R as [acts R]. split.
    + refine (arun_inv (SrcInv _ _ _) e acts _ _ _ _ R).
      * intros a t t'. apply src_step; auto.
      * apply src_start; [apply launches_enabled|intros ? ? []].
    + apply arun_cfg in R. rewrite R. cbn [par_again p_cfg]. intros k. destruct (par_cfg_flags e c) as (A & B & D & E & _). unfold zxOn, simOn in *. destruct k; cbn; congruence.
  - destruct IH as [IH1 IH2]. split.
    + refine (arun_inv (SrcInv _ _ _) e acts _ _ _ _ H).
      * intros a t t'. apply src_step; auto.
      * apply src_start.
        -- intros k Hk. apply IH2. now apply launches_enabled.
        -- intros ck b Hin. unfold left_by in Hin. apply in_map_iff in Hin. destruct Hin as (x & Ex & Hin). injection Ex as E1 E2.
           apply In_nth_error in Hin. destruct Hin as [i Hi]. exact (proj1 (proj1 IH1 i x Hi) ck E1).
    + apply arun_cfg in H. rewrite H. cbn [par_again p_cfg]. intros k Hk. apply IH2.
      destruct (par_cfg_flags e (p_cfg s0)) as (A & B & D & E & _). unfold zxOn, simOn in *. destruct k; cbn in *; congruence.
Qed.
Theorem runs_source e c g pp s : sane_sims c -> enough_threads e c -> runs e c g pp s -> definitive (r_eq (p_res s)) ->
  exists k, enabled e c k /\ computes e (drawable e) k (r_eq (p_res s)) /\ (k <> KSim \/ r_eq (p_res s) = NotEquivalent).
Proof.
  intros Hs He R HD. destruct (runs_src _ _ _ _ _ Hs He R) as [(_ & _ & [Hw|(k & Hk & [Hp|Hp] & Hq)]) _].
  - exfalso. unfold weak in Hw. unfold definitive in HD. intuition congruence.
  - exfalso. unfold definitive in HD. intuition congruence.
  - exists k. auto.
Qed.
Theorem runs_sound (truth : criterion -> Prop) e c g pp s : sane_sims c -> enough_threads e c -> runs e c g pp s ->
  (runAlternatingChecker (exec c) = true -> e_canHandle e = true -> truth (mcrit (e_alt e))) ->
  (runConstructionChecker (exec c) = true -> truth (mcrit (e_con e))) ->
  (runZXChecker (exec c) = true -> e_transformable e = true ->
     zcrit (e_ancilla e) (e_zx e) = Equivalent \/ zcrit (e_ancilla e) (e_zx e) = EquivalentUpToGlobalPhase ->
     truth (zcrit (e_ancilla e) (e_zx e))) ->
  (forall y, drawable e y -> e_sim e y = SNotEquivalent -> truth NotEquivalent) ->
  definitive (r_eq (p_res s)) -> truth (r_eq (p_res s)).
Proof.
  intros Hs He R TA TC TZ TS HD. destruct (runs_source _ _ _ _ _ Hs He R HD) as (k & Hk & Hc & Hq). destruct k; cbn in *.
  - destruct Hq as [Hq|Hq]; [congruence|]. rewrite Hq in *. destruct Hc as (y & Dy & Hy). apply (TS y Dy). apply scrit_ne. now symmetry.
  - destruct Hc as [Hh ->]. auto.
  - rewrite Hc. auto.
  - rewrite Hc in *. unfold zxOn in Hk. apply andb_true_iff in Hk. destruct Hk. apply TZ; auto.
    unfold definitive in HD. destruct (zcrit_cases (e_ancilla e) (e_zx e)) as [E|[E|[E|E]]]; rewrite E in *; auto; exfalso; intuition congruence.
Qed.

(** *** what a run that has returned leaves behind *)
Definition reach_of s : nat := match p_main s with MSignal j => j | MEnd | MReturned => length (p_slots s) | _ => O end.
Definition told (m : mpc) : bool := match m with MSignal _ | MEnd | MReturned => true | _ => false end.
Definition LeftInv s : Prop :=
  (told (p_main s) = true -> p_done s = true) /\
  (forall i x ck, i < reach_of s -> nth_error (p_slots s) i = Some x -> sl_chk x = Some ck ->
     sl_flag x = true \/ (k_eq ck = NoInformation /\ sl_w x <> WRun)) /\
  (p_main s = MReturned -> forallb has_chk (p_slots s) = true).

Lemma left_off s : told (p_main s) = false -> LeftInv s.
Proof.
  intros H. split; [congruence|]. split.
  - intros i x ck Hi. unfold reach_of in Hi. destruct (p_main s); try discriminate; lia.
  - intros E. rewrite E in H. discriminate.
Qed.
Lemma left_step e a s s' : LeftInv s -> astep e a s = Some s' -> LeftInv s'.
Proof.
  intros (A & B & D) H.
  assert (W : forall i, again_worker e i s = Some s' \/ abort_step i s = Some s' -> LeftInv s').
  { intros i HH. destruct (again_moves _ _ _ _ HH) as (EL & x & Hx & [->|[(-> & Hnd)|(x' & M & E & E1 & E2 & E3 & E4 & _)]]).
    - now apply left_off.
    - now apply left_off.
    - unfold LeftInv. rewrite E2, E3.
      assert (EP : reach_of s' = reach_of s) by (unfold reach_of; rewrite E3, E, upd_length; reflexivity). rewrite EP.
      split; [exact A|]. split.
      + intros j y ck Hj Hy Hck. rewrite E in Hy. destruct (Nat.eq_dec i j) as [->|N]; [|rewrite upd_other in Hy by assumption; eapply B; eauto].
        rewrite (upd_same _ _ _ _ Hx) in Hy. injection Hy as <-.
        assert (DN : p_done s = true).
        { apply A. unfold reach_of in Hj. destruct (p_main s); try lia; reflexivity. }
        pose proof (fun d => B j x d Hj Hx) as B'.
        destruct M; cbn [slot_w sl_chk sl_flag sl_w] in *; try congruence.
        * destruct (B' ck Hck) as [F|[F1 F2]]; auto. right. split; [assumption|destruct k; discriminate].
        * injection Hck as <-. right. split; [reflexivity|destruct k; discriminate].
        * injection Hck as <-. destruct (B' _ H1) as [F|[F1 F2]]; auto. right. split; [assumption|discriminate].
        * destruct (B' ck Hck) as [F|[F1 F2]]; auto. right. split; [assumption|discriminate].
        * destruct (B' ck Hck) as [F|[F1 F2]]; [auto|congruence].
        * destruct (B' _ H1) as [F|[F1 F2]]; [auto|congruence].
        * destruct (B' ck Hck) as [F|[F1 F2]]; auto. right. split; [assumption|discriminate].
        * auto.
      + intros E'. unfold live in EL. rewrite E' in EL. discriminate. }
  destruct a as [| |i|i]; cbn in H.
  - unfold main_step in H. destruct (p_main s) as [[|k ks]| | j | | | | | | |] eqn:EM; try discriminate.
    + injection H as <-. now apply left_off.
    + destruct (nth_error (p_slots s) (p_next s)) as [y|] eqn:Ey; injection H as <-; now apply left_off.
    + assert (Q : forall t, p_main t = MSignal 0 -> p_done t = true -> LeftInv t).
      { intros t E1 E2. split; [auto|]. split; [|rewrite E1; discriminate]. intros i x ck Hi. unfold reach_of in Hi. rewrite E1 in Hi. lia. }
      destruct (p_queue s) as [|i q]; [discriminate|].
      destruct (nth_error (p_slots s) i) as [x|] eqn:Ex; [|injection H as <-; now apply left_off].
      destruct (negb (is_idle x)); [discriminate|]. destruct (sl_exn x); [injection H as <-; now apply left_off|].
      destruct (sl_chk x) as [ck|] eqn:Ec; [|injection H as <-; now apply left_off].
      destruct (handle (p_cfg s) (p_res s) (k_kind ck) (k_eq ck) (k_stim ck)) as [r|r|r] eqn:EH; injection H as <-.
      * now apply Q.
      * apply left_off. simp. now rewrite EM.
      * apply left_off. simp. now rewrite EM.
    + assert (DN : p_done s = true) by (now apply A).
      destruct (nth_error (p_slots s) j) as [y|] eqn:Ey; injection H as <-.
      * split; [intros _; exact DN|]. split; [|discriminate]. unfold reach_of in *. simp. rewrite EM in B. intros i x ck Hi Hx Hck.
        destruct (Nat.eq_dec j i) as [->|N].
        -- rewrite (upd_same _ _ _ _ Ey) in Hx. injection Hx as <-. unfold has_chk in *. destruct (sl_chk y) eqn:E; cbn in Hck |- *; [now left|congruence].
        -- rewrite upd_other in Hx by assumption. eapply B; eauto. lia.
      * split; [intros _; exact DN|]. split; [|discriminate]. unfold reach_of in *. simp. rewrite EM in B. intros i x ck Hi Hx Hck. eapply B; eauto.
        apply nth_error_None in Ey. assert (i < length (p_slots s)) by (apply nth_error_Some; congruence). lia.
    + destruct (forallb is_idle (p_slots s)); [|discriminate]. injection H as <-. unfold LeftInv, reach_of in *. simp. rewrite EM in *.
      destruct (forallb has_chk (p_slots s)) eqn:EH; [|repeat split; try discriminate; intros; lia].
      split; [auto|]. split; [exact B|reflexivity].
    + destruct (forallb is_idle (p_slots s)); [|discriminate]. injection H as <-. now apply left_off.
  - unfold timeout_step in H. destruct (p_main s) eqn:EM; try discriminate. destruct (p_queue s); try discriminate.
    destruct (hasTimeout (p_cfg s)); [|discriminate]. injection H as <-. split; [reflexivity|]. split; [|discriminate]. cbn. intros; lia.
  - eapply W; eauto.
  - eapply W; eauto.
Qed.
Theorem left_behind e c l r g s : reached_again e c l r g s -> p_main s = MReturned ->
  forall o, In o (left_by s) -> exists ck b, o = (Some ck, b) /\ (b = true \/ k_eq ck = NoInformation).
Proof.
  intros [acts H] HM o Ho.
  assert (I : LeftInv s).
  { refine (arun_inv LeftInv e acts (left_step e) _ _ _ H). unfold par_again. split; [|split]; simp.
    - destruct (zx_alone_unsupported e c); [reflexivity|discriminate].
    - intros i x ck Hi Hx Hck. exfalso. unfold reach_of in Hi. simp. destruct (zx_alone_unsupported e c) eqn:Z; [|lia].
      destruct (zx_alone_launch _ _ Z) as (_ & E & _). rewrite E in *. rewrite map_length, resize_length in Hi. cbn in Hi. lia.
    - destruct (zx_alone_unsupported e c); discriminate. }
  destruct I as (_ & B & D). unfold left_by in Ho. apply in_map_iff in Ho. destruct Ho as (x & <- & Hin).
  specialize (D HM). rewrite forallb_forall in D. specialize (D x Hin). unfold has_chk in D. destruct (sl_chk x) as [ck|] eqn:E; [|discriminate].
  exists ck, (sl_flag x). split; [reflexivity|]. apply In_nth_error in Hin. destruct Hin as [i Hi].
  destruct (B i x ck) as [F|[F _]]; auto. unfold reach_of. rewrite HM. apply nth_error_Some. congruence.
Qed.

(** *** a simulation started where another checker is left over: run() never comes back *)
Definition Mismatch (i : nat) s : Prop :=
  (p_main s = MNullDeref \/ p_main s = MOutOfBounds \/ p_main s = MTerminated) \/
  (exists x ck, p_main s <> MReturned /\ p_main s <> MThrown /\ nth_error (p_slots s) i = Some x /\ sl_chk x = Some ck /\ k_kind ck <> KSim /\ ~ In i (p_queue s) /\
     ((exists ks, p_main s = MLaunch ks /\ p_next s <= i /\ nth_error ks (i - p_next s) = Some KSim /\ sl_w x = WIdle) \/
      (i < p_next s /\ (sl_w x = WStart KSim \/ sl_w x = WDraw)))).
Lemma mismatch_step e i a s s' : Mismatch i s -> astep e a s = Some s' -> Mismatch i s'.
Proof.
  intros [HB|(x & ck & N1 & N2 & Hx & Hc & Hk & Hq & HP)] H.
  { exfalso. destruct a as [| |j|j]; cbn in H.
    - unfold main_step in H. destruct HB as [E|[E|E]]; rewrite E in H; discriminate.
    - unfold timeout_step in H. destruct HB as [E|[E|E]]; rewrite E in H; discriminate.
    - destruct (again_moves _ _ _ _ (or_introl H)) as (EL & _). unfold live in EL. destruct HB as [E|[E|E]]; rewrite E in EL; discriminate.
    - destruct (again_moves e _ _ _ (or_intror H)) as (EL & _). unfold live in EL. destruct HB as [E|[E|E]]; rewrite E in EL; discriminate. }
  assert (W : forall j, again_worker e j s = Some s' \/ abort_step j s = Some s' -> Mismatch i s').
  { intros j HH. destruct (again_moves _ _ _ _ HH) as (EL & y & Hy & [->|[(-> & _)|(y' & M & E & _ & _ & E3 & E4 & _ & _ & EQ)]]); [left; simp; auto|left; simp; auto|].
    destruct (Nat.eq_dec j i) as [->|N].
    - assert (y = x) by congruence. subst y. right.
      destruct HP as [(ks & _ & _ & _ & HW)|(HL & [HW|HW])].
      + destruct M; congruence.
      + destruct M; try congruence. assert (k = KSim) by congruence. subst k. exists (slot_w WDraw x), ck.
        rewrite E3, E4, E, (upd_same _ _ _ _ Hx). repeat split; auto.
        assert (EQ' : p_queue s' = p_queue s).
        { destruct HH as [HH|HH].
          - unfold again_worker in HH. rewrite EL, Hx in HH. cbn [negb] in HH. unfold worker_step in HH. rewrite EL, Hx, HW, Hc in HH. cbn [negb] in HH. injection HH as <-. reflexivity.
          - unfold abort_step in HH. rewrite EL, Hx, HW in HH. cbn [negb] in HH. discriminate. }
        now rewrite EQ'.
      + destruct M; congruence.
    - right. exists x, ck. rewrite E3, E4, E, upd_other by assumption. repeat split; auto.
      destruct EQ as [-> | ->]; [assumption|]. rewrite in_app_iff. cbn. intuition. }
  assert (ACT : (forall ks, p_main s <> MLaunch ks) -> i < p_next s /\ (sl_w x = WStart KSim \/ sl_w x = WDraw)).
  { intros NL. destruct HP as [(ks & E & _)|HP]; [destruct (NL _ E)|exact HP]. }
  destruct a as [| |j|j]; cbn in H.
  - unfold main_step in H. destruct (p_main s) as [[|k ks]| | j | | | | | | |] eqn:EM; try discriminate.
    + injection H as <-. right. exists x, ck. simp. repeat split; try discriminate; auto.
      destruct HP as [(ks & E & _ & HN & _)|HP]; [|auto]. injection E as <-. destruct (i - p_next s); discriminate.
    + destruct (nth_error (p_slots s) (p_next s)) as [y|] eqn:Ey; injection H as <-; [|left; simp; auto].
      right. destruct (Nat.eq_dec (p_next s) i) as [E|N].
      * destruct HP as [(ks' & E' & _ & HN & HW)|[HP _]]; [|lia].
        rewrite E in *. assert (y = x) by congruence. subst y.
        injection E' as <-. rewrite Nat.sub_diag in HN. cbn in HN. injection HN as ->.
        eexists _, ck. simp. split; [discriminate|]. split; [discriminate|]. rewrite (upd_same _ _ _ _ Hx). split; [reflexivity|]. cbn. repeat split; auto.
      * exists x, ck. simp. rewrite upd_other by assumption. repeat split; try discriminate; auto.
        destruct HP as [(ks' & E' & HL & HN & HW)|[HL HP]]; [|right; split; [lia|exact HP]]. injection E' as <-. left. exists ks. repeat split; auto; [lia|].
        replace (i - p_next s) with (S (i - S (p_next s))) in HN by lia. exact HN.
    + specialize (ACT ltac:(discriminate)).
      destruct (p_queue s) as [|j q] eqn:EQ; [discriminate|].
      destruct (nth_error (p_slots s) j) as [y|] eqn:Ey; [|injection H as <-; left; simp; auto].
      destruct (negb (is_idle y)); [discriminate|].
      assert (NJ : j <> i) by (intros ->; apply Hq; now left). assert (NQ : ~ In i q) by (intros HI; apply Hq; now right).
      destruct (sl_exn y); [injection H as <-; right; exists x, ck; simp; repeat split; try discriminate; auto|].
      destruct (sl_chk y) as [d|] eqn:Ed; [|injection H as <-; left; simp; auto].
      destruct (handle (p_cfg s) (p_res s) (k_kind d) (k_eq d) (k_stim d)); injection H as <-; right; exists x, ck; simp;
        rewrite ?upd_other by assumption; rewrite ?EM; repeat split; try discriminate; auto.
    + specialize (ACT ltac:(discriminate)). destruct (nth_error (p_slots s) j) as [y|] eqn:Ey; injection H as <-; right.
      * destruct (Nat.eq_dec j i) as [->|NJ].
        -- assert (y = x) by congruence. subst y. eexists _, ck. simp. split; [discriminate|]. split; [discriminate|]. rewrite (upd_same _ _ _ _ Hx).
           split; [reflexivity|]. unfold has_chk. rewrite Hc. cbn. repeat split; auto.
        -- exists x, ck. simp. rewrite upd_other by assumption. repeat split; try discriminate; auto.
      * exists x, ck. simp. repeat split; try discriminate; auto.
    + specialize (ACT ltac:(discriminate)). destruct (forallb is_idle (p_slots s)) eqn:EI; [|discriminate]. exfalso.
      rewrite forallb_forall in EI. specialize (EI x (nth_error_In _ _ Hx)). unfold is_idle in EI. destruct ACT as [_ [E|E]]; rewrite E in EI; discriminate.
    + specialize (ACT ltac:(discriminate)). destruct (forallb is_idle (p_slots s)) eqn:EI; [|discriminate]. exfalso.
      rewrite forallb_forall in EI. specialize (EI x (nth_error_In _ _ Hx)). unfold is_idle in EI. destruct ACT as [_ [E|E]]; rewrite E in EI; discriminate.
  - unfold timeout_step in H. destruct (p_main s) eqn:EM; try discriminate. destruct (p_queue s) eqn:EQ; try discriminate.
    destruct (hasTimeout (p_cfg s)); [|discriminate]. injection H as <-. right. exists x, ck. simp. rewrite EQ. repeat split; try discriminate; auto.
    right. apply ACT. discriminate.
  - eapply W; eauto.
  - eapply W; eauto.
Qed.
Theorem mismatch_never_ends e c (l : list (left_over Stim)) r g s i ck b : zx_alone_unsupported e c = false -> i < N.to_nat (effectiveThreads e c) ->
  nth_error (launches e c) i = Some KSim -> nth_error l i = Some (Some ck, b) -> k_kind ck <> KSim ->
  reached_again e c l r g s -> ~ ended s.
Proof.
  intros Z Hi HK HL Hk [acts H].
  assert (M : Mismatch i s).
  { refine (arun_inv (Mismatch i) e acts (mismatch_step e i) _ _ _ H). right. exists (old_slot (Some ck, b)), ck. unfold par_again. simp.
    rewrite Z.
    assert (E : nth_error (map old_slot (resize (N.to_nat (effectiveThreads e c)) l)) i = Some (old_slot (Some ck, b))).
    { rewrite nth_error_map, (resize_nth _ _ _ Hi), HL. reflexivity. }
    repeat split; try discriminate; auto.
    left. exists (launches e c). rewrite Nat.sub_0_r. repeat split; auto. lia. }
  intros [E|E]; destruct M as [[M|[M|M]]|(x & d & N1 & N2 & _)]; congruence.
Qed.
End Proofs.
