(** Invariants of the parallel flow. *)
From Coq Require Import String List Bool NArith QArith Arith Lia.
From Verif Require Import Criterion Config SeqFlow SeqSpec SeqProofs ParFlow ParSpec.
Import ListNotations.
Local Open Scope list_scope.

(** *** list updates *)
Lemma upd_length {A} (l : list A) i x : length (upd l i x) = length l.
Proof. revert i; induction l; destruct i; cbn; auto. Qed.
Lemma upd_same {A} (l : list A) i x y : nth_error l i = Some y -> nth_error (upd l i x) i = Some x.
Proof. revert i; induction l; destruct i; cbn; intros; try discriminate; auto. Qed.
Lemma upd_other {A} (l : list A) i j x : i <> j -> nth_error (upd l i x) j = nth_error l j.
Proof. revert i j; induction l; destruct i, j; cbn; intros; auto; congruence. Qed.
Lemma upd_inv {A} (l : list A) i x j z : nth_error (upd l i x) j = Some z ->
  (j = i /\ z = x /\ (i < length l)%nat) \/ (j <> i /\ nth_error l j = Some z).
Proof.
  intros H. destruct (Nat.eq_dec j i) as [->|N].
  - left. assert (L : (i < length l)%nat) by (rewrite <- (upd_length l i x); apply nth_error_Some; congruence).
    destruct (nth_error l i) eqn:E; [|apply nth_error_None in E; lia].
    rewrite (upd_same _ _ _ _ E) in H. injection H as <-. auto.
  - right. split; auto. now rewrite upd_other in H by auto.
Qed.

Lemma filter_flip (f g : nat -> bool) i (l : list nat) :
  NoDup l -> In i l -> (forall j, j <> i -> f j = g j) ->
  (length (filter f l) + (if g i then 1 else 0) = length (filter g l) + (if f i then 1 else 0))%nat.
Proof.
  intros ND HI E. induction l as [|a l IH]; [contradiction|]. inversion ND as [|? ? Hn ND']; subst.
  cbn [filter]. destruct (Nat.eq_dec a i) as [->|Na].
  - assert (filter f l = filter g l) as ->.
    { apply filter_ext_in. intros b Hb. apply E. intros ->. contradiction. }
    destruct (f i), (g i); cbn [length]; lia.
  - destruct HI as [?|HI]; [contradiction|]. rewrite (E a Na). specialize (IH ND' HI).
    destruct (g a); cbn [length]; lia.
Qed.

Lemma filter_len_ext (f g : nat -> bool) l : (forall j, In j l -> f j = g j) -> length (filter f l) = length (filter g l).
Proof. intros H. now rewrite (filter_ext_in f g l H). Qed.

Section Proofs.
Context {Stim Gen : Type}.
Notation env := (env Stim Gen).
Notation pst := (pst Stim Gen).
Notation slot := (slot Stim).
Implicit Types (e : env) (s : pst) (c : config) (x : slot) (g : Gen).

(** *** structural invariant *)
Definition phase_signal (s : pst) : nat :=
  match p_main s with MSignal j => j | MEnd | MReturned | MNullDeref => length (p_slots s) | _ => O end.

Definition complete e x : Prop := exists k, sl_chk x = Some k /\ k_eq k = natural e (k_kind k) (k_stim k) /\ (k_kind k = KAlt -> e_canHandle e = true).

Definition slot_inv e (done : bool) (queue : list nat) (sig : nat) (i : nat) (k : kind) x : Prop :=
  (forall ck, sl_chk x = Some ck -> k_kind ck = k) /\
  (done = false -> sl_flag x = false) /\
  ((i < sig)%nat -> sl_w x = WRun -> sl_flag x = true) /\
  match sl_w x with
  | WIdle => (done = false -> sl_exn x = true \/ complete e x) /\ (sl_exn x = false -> exists ck, sl_chk x = Some ck /\ (k = KSim -> k_stim ck <> None))
  | WStart k' => k' = k /\ sl_exn x = false /\ ~ In i queue
  | WDraw => k = KSim /\ sl_chk x <> None /\ sl_exn x = false /\ ~ In i queue
  | WRead | WRun => (exists ck, sl_chk x = Some ck /\ (k = KSim -> k_stim ck <> None)) /\ sl_exn x = false /\ ~ In i queue
  | WPush => ~ In i queue /\ (done = false -> sl_exn x = true \/ complete e x) /\ (sl_exn x = false -> exists ck, sl_chk x = Some ck /\ (k = KSim -> k_stim ck <> None))
  end.

Definition early (m : mpc) : bool :=
  match m with MLaunch _ | MLoop | MUnwind | MThrown => true | _ => false end.

Record Inv e (ks : list kind) s : Prop := mkInv {
  inv_len : (length ks <= length (p_slots s))%nat;
  inv_next : (p_next s <= length ks)%nat;
  inv_slots : forall i x, nth_error (p_slots s) i = Some x ->
     ((i < p_next s)%nat /\ exists k, nth_error ks i = Some k /\ slot_inv e (p_done s) (p_queue s) (phase_signal s) i k x)
     \/ ((p_next s <= i)%nat /\ x = empty_slot);
  inv_queue : forall i, In i (p_queue s) -> (i < p_next s)%nat /\ exists x, nth_error (p_slots s) i = Some x /\ sl_w x = WIdle;
  inv_nodup : NoDup (p_queue s);
  inv_done : if early (p_main s) then p_done s = false else p_main s <> MTerminated -> p_done s = true;
  inv_main : match p_main s with
             | MLaunch rest => ks = firstn (p_next s) ks ++ rest
             | MTerminated => True
             | _ => p_next s = length ks \/ p_done s = true end }.

Lemma slot_inv_mono_sig e d q sig sig' i k x :
  slot_inv e d q sig i k x -> (sig' <= sig)%nat -> slot_inv e d q sig' i k x.
Proof. intros (A & B & C & D) L. split; [|split; [|split]]; auto. intros; apply C; auto; lia. Qed.

Lemma slot_inv_done e d q sig i k x : slot_inv e d q sig i k x -> slot_inv e true q sig i k x.
Proof.
  intros (A & B & C & D). split; [|split; [|split]]; auto; try discriminate.
  destruct (sl_w x); intuition discriminate.
Qed.

Lemma slot_inv_queue e d q q' sig i k x :
  slot_inv e d q sig i k x -> (In i q' -> In i q) -> slot_inv e d q' sig i k x.
Proof.
  intros (A & B & C & D) H. split; [|split; [|split]]; auto.
  destruct (sl_w x); intuition.
Qed.

(** main thread: the launching step *)
Lemma firstn_app_cons {A} (l : list A) n k rest :
  l = firstn n l ++ k :: rest -> (n <= length l)%nat ->
  nth_error l n = Some k /\ l = firstn (S n) l ++ rest /\ (S n <= length l)%nat.
Proof.
  intros E L. assert (Hn : length (firstn n l) = n) by (rewrite firstn_length; lia).
  assert (N : nth_error l n = Some k).
  { rewrite E, nth_error_app2 by lia. rewrite Hn, Nat.sub_diag. reflexivity. }
  assert (HL : (S n <= length l)%nat).
  { rewrite E, app_length, Hn. cbn. lia. }
  repeat split; auto.
  assert (FS : firstn (S n) l = firstn n l ++ [k]).
  { rewrite E at 1. rewrite firstn_app, Hn. replace (S n - n)%nat with 1%nat by lia.
    rewrite firstn_all2 by lia. reflexivity. }
  rewrite FS, <- app_assoc. exact E.
Qed.

Ltac simp := cbn [set_main set_next set_pres set_slot set_queue set_pgen add_log begin_signal set_pdone
   p_cfg p_slots p_queue p_done p_main p_next p_res p_gen p_log phase_signal] in *.

Lemma inv_main_step e ks s s' : Inv e ks s -> main_step s = Some s' -> Inv e ks s'.
Proof.
  intros [HL HN HS HQ HND HD HM] H. unfold main_step in H.
  destruct (p_main s) as [rest| | j | | | | | | |] eqn:EM; try discriminate.
  - (* launch *)
    destruct rest as [|k rest].
    + injection H as <-. split; simp; auto.
      * intros i x Hx. specialize (HS i x Hx). unfold phase_signal in HS. now rewrite EM in HS.
      * left. rewrite app_nil_r in HM. rewrite HM, firstn_length in *. lia.
    + destruct (firstn_app_cons _ _ _ _ HM HN) as (Hk & HM' & HL').
      destruct (nth_error (p_slots s) (p_next s)) as [x|] eqn:Ex.
      2:{ apply nth_error_None in Ex. lia. }
      injection H as <-. split; simp; auto.
      * now rewrite upd_length.
      * intros i y Hy. apply upd_inv in Hy. destruct Hy as [(-> & -> & Hlt)|(Hne & Hy)].
        -- left. split; [lia|]. exists k. split; [assumption|].
           destruct (HS _ _ Ex) as [[? _]|[_ ->]]; [lia|].
           split; [|split; [|split]]; cbn; auto; try discriminate.
           repeat split; auto. intros Hin. apply HQ in Hin. lia.
        -- destruct (HS _ _ Hy) as [[Hlt (k' & Hk' & HI)]|[Hge ->]].
           ++ left. split; [lia|]. exists k'. split; [assumption|]. unfold phase_signal in HI. rewrite EM in HI. exact HI.
           ++ right. split; [lia|reflexivity].
      * intros i Hin. destruct (HQ _ Hin) as (Hlt & y & Hy & Hw). split; [lia|].
        exists y. split; [|assumption]. rewrite upd_other; [assumption|lia].
  - (* loop *)
    destruct (p_queue s) as [|i q] eqn:EQ; [discriminate|].
    cbn [early] in HD.
    assert (Hps : phase_signal s = O) by (unfold phase_signal; now rewrite EM).
    destruct (HQ i (or_introl eq_refl)) as (Hilt & x & Hx & Hw). rewrite Hx in H.
    inversion HND as [|? ? Hni HND']; subst.
    assert (Hslots : forall d' sig', (forall j y, nth_error (p_slots s) j = Some y -> d' = p_done s \/ d' = true) -> sig' = O ->
       forall j y, nth_error (p_slots s) j = Some y ->
        ((j < p_next s)%nat /\ exists k, nth_error ks j = Some k /\ slot_inv e d' q sig' j k y)
        \/ ((p_next s <= j)%nat /\ y = empty_slot)).
    { intros d' sig' Hd' -> j y Hy. destruct (HS _ _ Hy) as [[Hlt (k & Hk & HI)]|?]; [|auto].
      left. split; [assumption|]. exists k. split; [assumption|].
      apply slot_inv_queue with (q := i :: q); [|now right]. rewrite Hps in HI.
      destruct (Hd' _ _ Hy) as [->| ->]; [assumption|now apply slot_inv_done in HI]. }
    assert (Hq' : forall j, In j q -> (j < p_next s)%nat /\ exists y, nth_error (p_slots s) j = Some y /\ sl_w y = WIdle)
      by (intros; apply HQ; now right).
    assert (Hnx : p_next s = length ks) by (destruct HM; [assumption|congruence]).
    unfold is_idle in H. rewrite Hw in H. cbn [negb] in H.
    destruct (sl_exn x) eqn:Exn.
    { injection H as <-. split; simp; auto; try (intros j y Hy; apply Hslots; auto). }
    destruct (sl_chk x) as [ck|] eqn:Eck.
    2:{ (* impossible: a finished worker without exception has a checker *)
        exfalso. destruct (HS _ _ Hx) as [[_ (k & _ & (_ & _ & _ & D))]|[? _]]; [|lia].
        rewrite Hw in D. destruct D as [_ D]. destruct (D Exn) as (? & ? & _). congruence. }
    destruct (handle (p_cfg s) (p_res s) (k_kind ck) (k_eq ck) (k_stim ck)) as [r|r|r] eqn:EH.
    { injection H as <-. split; simp; auto; try (intros j y Hy; apply Hslots; auto). cbn. auto. }
    { injection H as <-. split; simp; rewrite ?EM; auto; try (intros j y Hy; apply Hslots; auto). }
    { injection H as <-.
      assert (Hks : k_kind ck = KSim).
      { unfold handle in EH. destruct (k_kind ck); auto; exfalso;
        destruct (k_eq ck); try discriminate;
        repeat match type of EH with context [if ?b then _ else _] => destruct b end; discriminate. }
      split; simp; rewrite ?EM; auto.
      - now rewrite upd_length.
      - intros j y Hy. apply upd_inv in Hy. destruct Hy as [(-> & -> & _)|(Hne & Hy)].
        + left. split; [assumption|]. destruct (HS _ _ Hx) as [[_ (k & Hk & (A & B & C & D))]|[? _]]; [|lia].
          exists k. split; [assumption|]. assert (k = KSim) as -> by (rewrite <- (A _ Eck); assumption).
          split; [|split; [|split]]; cbn; auto; try discriminate; repeat split; auto.
        + apply Hslots; auto. unfold phase_signal; simp; now rewrite EM.
      - intros j Hj. destruct (Hq' _ Hj) as (Hlt & y & Hy & Hyw). split; [assumption|].
        exists y. split; [|assumption]. rewrite upd_other; [assumption|]. intros ->. contradiction. }
  - (* signalling *)
    cbn [early] in HD. specialize (HD ltac:(discriminate)).
    destruct (nth_error (p_slots s) j) as [x|] eqn:Ex; injection H as <-.
    + split; simp; auto.
      * now rewrite upd_length.
      * intros i y Hy. apply upd_inv in Hy. destruct Hy as [(-> & -> & _)|(Hne & Hy)].
        -- destruct (HS _ _ Ex) as [[Hlt (k & Hk & (A & B & C & D))]|[Hge ->]].
           ++ left. split; [assumption|]. exists k. split; [assumption|].
              unfold has_chk. destruct (sl_chk x) as [ck|] eqn:Eck.
              ** split; [|split; [|split]]; cbn [sl_chk sl_flag sl_w sl_exn]; auto; try congruence.
                 destruct (sl_w x); auto; rewrite ?Eck in *; intuition congruence.
              ** split; [|split; [|split]]; try (now auto); try (intros; congruence).
                 --- intros _ Hr. rewrite Hr in D. destruct D as ((ck & ? & _) & _). congruence.
                 --- rewrite Eck. exact D.
           ++ right. split; [assumption|]. reflexivity.
        -- destruct (HS _ _ Hy) as [[Hlt (k & Hk & (A & B & C & D))]|?]; [|auto].
           left. split; [assumption|]. exists k. split; [assumption|].
           split; [|split; [|split]]; auto. intros Hi. apply C. unfold phase_signal. rewrite EM. lia.
      * intros i Hi. destruct (HQ _ Hi) as (Hlt & y & Hy & Hw). split; [assumption|].
        destruct (Nat.eq_dec i j) as [->|Hne].
        -- exists (if has_chk x then mkSlot (sl_chk x) true (sl_w x) (sl_exn x) else x).
           split; [eapply upd_same; eassumption|]. assert (y = x) as -> by congruence. destruct (has_chk x); assumption.
        -- exists y. split; [|assumption]. rewrite upd_other; auto.
      * cbn. auto.
    + split; simp; auto; [|cbn; auto]. intros i y Hy. destruct (HS _ _ Hy) as [[Hlt (k & Hk & HI)]|?]; [|auto].
      left. split; [assumption|]. exists k. split; [assumption|].
      destruct HI as (A & B & C & D). split; [|split; [|split]]; auto.
      intros Hi. apply C. unfold phase_signal. rewrite EM. apply nth_error_None in Ex. lia.
  - (* end *)
    destruct (forallb is_idle (p_slots s)); [|discriminate]. injection H as <-.
    cbn [early] in HD. specialize (HD ltac:(discriminate)).
    split; simp; auto.
    + intros i y Hy. destruct (HS _ _ Hy) as [[Hlt (k & Hk & HI)]|?]; [|auto].
      left. split; [assumption|]. exists k. split; [assumption|]. unfold phase_signal in *. rewrite EM in HI.
      simp. destruct (forallb has_chk (p_slots s)); exact HI.
    + now destruct (forallb has_chk (p_slots s)).
    + destruct (forallb has_chk (p_slots s)); auto.
  - (* unwind *)
    destruct (forallb is_idle (p_slots s)); [|discriminate]. injection H as <-.
    split; simp; auto.
    intros i y Hy. specialize (HS i y Hy). unfold phase_signal in HS. now rewrite EM in HS.
Qed.

Lemma inv_timeout e ks s s' : Inv e ks s -> timeout_step s = Some s' -> Inv e ks s'.
Proof.
  intros [HL HN HS HQ HND HD HM] H. unfold timeout_step in H.
  destruct (p_main s) eqn:EM; try discriminate. destruct (p_queue s) eqn:EQ; try discriminate.
  destruct (hasTimeout (p_cfg s)); [|discriminate]. injection H as <-.
  split; simp; rewrite ?EQ; auto; try (now intros ? []); [|cbn; auto].
  intros i y Hy. destruct (HS _ _ Hy) as [[Hlt (k & Hk & HI)]|?]; [|auto].
  left. split; [assumption|]. exists k. split; [assumption|]. apply slot_inv_done in HI.
  apply slot_inv_mono_sig with (sig := phase_signal s); [assumption|]. unfold phase_signal at 1. simp. lia.
Qed.

(** changing one slot while everything else stays *)
Lemma inv_set_slot e ks s i x x' k :
  Inv e ks s -> nth_error (p_slots s) i = Some x -> sl_w x <> WIdle -> nth_error ks i = Some k ->
  sl_w x' <> WIdle ->
  slot_inv e (p_done s) (p_queue s) (phase_signal s) i k x' ->
  Inv e ks (set_slot i x' s).
Proof.
  intros [HL HN HS HQ HND HD HM] Hx Hb Hk Hb' HI.
  assert (Hps : phase_signal (set_slot i x' s) = phase_signal s).
  { unfold phase_signal. simp. destruct (p_main s); auto; now rewrite upd_length. }
  split; auto.
  - simp. now rewrite upd_length.
  - rewrite Hps. simp. intros j y Hy. apply upd_inv in Hy. destruct Hy as [(-> & -> & _)|(Hne & Hy)]; [|auto].
    left. split; [|eauto]. destruct (HS _ _ Hx) as [[? _]|[? ->]]; [assumption|]. cbn in Hb. congruence.
  - simp. intros j Hj. destruct (HQ _ Hj) as (Hlt & y & Hy & Hw). split; [assumption|].
    exists y. split; [|assumption]. rewrite upd_other; [assumption|]. intros ->. congruence.
Qed.

Lemma inv_pgen e ks s g' : Inv e ks s -> Inv e ks (set_pgen g' s).
Proof. intros [? ? ? ? ? ? ?]. split; auto. Qed.

Lemma inv_worker e ks i s s' : Inv e ks s -> worker_step e i s = Some s' -> Inv e ks s'.
Proof.
  intros I H. unfold worker_step in H. destruct (live s) eqn:EL; cbn [negb] in H; [|discriminate].
  destruct (nth_error (p_slots s) i) as [x|] eqn:Ex; [|discriminate].
  pose proof I as [HL HN HS HQ HND HD HM].
  destruct (HS _ _ Ex) as [[Hlt (k & Hk & (A & B & C & D))]|[Hge ->]]; [|discriminate].
  destruct (sl_w x) as [|k'| | | |] eqn:Ew; try discriminate.
  - (* start *)
    destruct D as (-> & Dx & Dq).
    destruct (sl_chk x) as [ck|] eqn:Eck.
    { injection H as <-. eapply inv_set_slot; eauto; [congruence|destruct k; discriminate|].
      split; [|split; [|split]]; unfold slot_w; cbn [sl_chk sl_flag sl_w sl_exn]; rewrite ?Eck.
      - exact A.
      - exact B.
      - intros H1 H2. destruct k; discriminate H2.
      - destruct k; repeat split; auto; try (exists ck; split; auto; discriminate). congruence. }
    destruct (ctor_throws e (p_cfg s) k).
    { injection H as <-. eapply inv_set_slot; eauto; [congruence|discriminate|].
      split; [|split; [|split]]; cbn; auto; try (intros; discriminate).
      repeat split; auto; discriminate. }
    assert (HI : slot_inv e (p_done s) (p_queue s) (phase_signal s) i k
              (mkSlot (Some (mkChecker k NoInformation None)) false (match k with KSim => WDraw | _ => WRead end) false)).
    { split; [|split; [|split]]; cbn [sl_chk sl_flag sl_w sl_exn]; auto.
      - intros ck [= <-]. reflexivity.
      - intros H1 H2; destruct k; discriminate H2.
      - destruct k; cbn; repeat split; auto; try (eexists; split; [reflexivity|]; discriminate). discriminate. }
    destruct k; try (injection H as <-; eapply inv_set_slot; eauto; [congruence|discriminate]).
    destruct (e_zx_perm_ok e).
    + injection H as <-; eapply inv_set_slot; eauto; [congruence|discriminate].
    + injection H as <-. split; simp; auto; [|congruence].
      intros j y Hy. destruct (HS _ _ Hy) as [[Hlt' (k' & Hk' & HI')]|?]; [|auto].
      left. split; [assumption|]. exists k'. split; [assumption|].
      eapply slot_inv_mono_sig; [eassumption|]. unfold phase_signal at 1. simp. lia.
  - (* draw *)
    destruct D as (-> & Dc & Dx & Dq).
    destruct (e_gen e (p_gen s)) as [[stm g']|]; [|discriminate].
    destruct (sl_chk x) as [ck|] eqn:Eck; [|discriminate]. injection H as <-.
    apply inv_pgen. eapply inv_set_slot; eauto; [congruence|discriminate|].
    split; [|split; [|split]]; cbn [sl_chk sl_flag sl_w sl_exn]; auto; try (intros; discriminate).
    + intros ck' [= <-]. cbn. auto.
    + repeat split; auto. eexists. split; [reflexivity|]. discriminate.
  - (* read *)
    destruct D as ((ck & Dc & Ds) & Dx & Dq). injection H as <-.
    eapply inv_set_slot; eauto; [congruence|unfold slot_w; cbn; destruct (p_done s); discriminate|].
    split; [|split; [|split]]; unfold slot_w; cbn [sl_chk sl_flag sl_w sl_exn]; auto.
    + destruct (p_done s) eqn:Edn; [discriminate|]. intros Hsig _.
      exfalso. unfold phase_signal in Hsig. destruct (p_main s); try lia; cbn in HD; try (discriminate HD; discriminate).
      all: specialize (HD ltac:(discriminate)); discriminate.
    + destruct (p_done s) eqn:Edn.
      * repeat split; auto; [discriminate|]. intros _. exists ck. auto.
      * repeat split; eauto.
  - (* run *)
    destruct D as ((ck & Dc & Ds) & Dx & Dq). rewrite Dc in H.
    assert (HX : (k_kind ck = KAlt -> e_canHandle e = true) -> Some (set_slot i (mkSlot (Some (mkChecker (k_kind ck) (natural e (k_kind ck) (k_stim ck)) (k_stim ck)))
                                      (sl_flag x) WPush (sl_exn x)) s) = Some s' -> Inv e ks s').
    { intros HH [= <-]. eapply inv_set_slot; eauto; [congruence|discriminate|].
      split; [|split; [|split]]; cbn [sl_chk sl_flag sl_w sl_exn]; auto; try (intros; discriminate).
      - intros ck' [= <-]. cbn. auto.
      - repeat split; auto.
        + intros _. right. eexists. split; [reflexivity|]. split; [reflexivity|exact HH].
        + intros _. eexists. split; [reflexivity|]. exact Ds. }
    destruct (k_kind ck); try (apply HX; [discriminate|exact H]). destruct (e_canHandle e); [now apply HX|].
    injection H as <-. eapply inv_set_slot; eauto; [congruence|discriminate|].
    split; [|split; [|split]]; cbn [sl_chk sl_flag sl_w sl_exn]; auto; try (intros; discriminate).
    { intros ck0 [= <-]; auto. } repeat split; auto; discriminate.
  - (* push *)
    destruct D as (Dq & Dc & De). injection H as <-.
    assert (Hps : phase_signal (set_queue (p_queue s ++ [i]) (set_slot i (slot_w WIdle x) s)) = phase_signal s).
    { unfold phase_signal. simp. destruct (p_main s); auto; now rewrite upd_length. }
    split; auto.
    + simp. now rewrite upd_length.
    + rewrite Hps. simp. intros j y Hy. apply upd_inv in Hy. destruct Hy as [(-> & -> & _)|(Hne & Hy)].
      * left. split; [assumption|]. exists k. split; [assumption|].
        split; [|split; [|split]]; unfold slot_w; cbn [sl_chk sl_flag sl_w sl_exn]; auto; try (intros; discriminate).
      * destruct (HS _ _ Hy) as [[Hlt' (k' & Hk' & HI)]|?]; [|auto].
        left. split; [assumption|]. exists k'. split; [assumption|].
        eapply slot_inv_queue; [eassumption|]. intros Hin. apply in_app_or in Hin.
        destruct Hin as [?|[->|[]]]; [assumption|congruence].
    + simp. intros j Hj. apply in_app_or in Hj. destruct (Nat.eq_dec j i) as [->|Hne].
      * split; [assumption|]. exists (slot_w WIdle x). split; [eapply upd_same; eassumption|reflexivity].
      * destruct Hj as [Hj|[->|[]]]; [|congruence]. destruct (HQ _ Hj) as (Hlt' & y & Hy & Hw).
        split; [assumption|]. exists y. split; [|assumption]. rewrite upd_other; auto.
    + simp. rewrite <- rev_involutive, rev_app_distr. apply NoDup_rev. cbn. constructor.
      * rewrite <- in_rev. assumption.
      * now apply NoDup_rev.
Qed.

Lemma inv_abort e ks i s s' : Inv e ks s -> abort_step i s = Some s' -> Inv e ks s'.
Proof.
  intros I H. unfold abort_step in H. destruct (live s) eqn:EL; cbn [negb] in H; [|discriminate].
  destruct (nth_error (p_slots s) i) as [x|] eqn:Ex; [|discriminate].
  pose proof I as [HL HN HS HQ HND HD HM].
  destruct (HS _ _ Ex) as [[Hlt (k & Hk & (A & B & C & D))]|[Hge ->]]; [|discriminate].
  destruct (sl_w x) as [|k'| | | |] eqn:Ew; try discriminate.
  destruct (sl_chk x) as [ck|] eqn:Eck; [|discriminate]. destruct (sl_flag x) eqn:Ef; [|discriminate].
  injection H as <-. destruct D as ((ck0 & Dc & Ds) & Dx & Dq). assert (ck0 = ck) as -> by congruence.
  assert (Hdn : p_done s = true).
  { destruct (p_done s); [reflexivity|]. now specialize (B eq_refl). }
  eapply inv_set_slot; eauto; [congruence|discriminate|].
  split; [|split; [|split]]; cbn [sl_chk sl_flag sl_w sl_exn]; auto; try (intros; congruence).
  - intros ck' [= <-]. cbn. auto.
  - repeat split; auto; [congruence|]. intros _. eexists. split; [reflexivity|]. exact Ds.
Qed.

Theorem inv_step e ks a s s' : Inv e ks s -> pstep e a s = Some s' -> Inv e ks s'.
Proof.
  destruct a; cbn; [apply inv_main_step|apply inv_timeout|apply inv_worker|apply inv_abort].
Qed.

Lemma prun_inv (P : pst -> Prop) e acts : (forall a s s', P s -> pstep e a s = Some s' -> P s') ->
  forall s s', P s -> prun e acts s = Some s' -> P s'.
Proof.
  intros HP. induction acts as [|a acts IH]; cbn; intros s s' H0 H; [congruence|].
  destruct (pstep e a s) as [s1|] eqn:E; [|discriminate]. eauto.
Qed.

Lemma nth_error_repeat {A} (x : A) n i y : nth_error (repeat x n) i = Some y -> y = x.
Proof. revert i; induction n; destruct i; cbn; intros; try discriminate; [congruence|eauto]. Qed.

Lemma inv_init e c g pp :
  (length (launches e c) <= N.to_nat (effectiveThreads e c))%nat -> Inv e (launches e c) (par_init e c g pp).
Proof.
  intros HL. split; unfold par_init; simp; auto.
  - now rewrite repeat_length.
  - lia.
  - intros i x Hx. right. split; [lia|]. now apply nth_error_repeat in Hx.
  - intros i [].
  - constructor.
  - destruct (zx_alone_unsupported e c); cbn; auto.
  - destruct (zx_alone_unsupported e c); cbn; auto.
Qed.

End Proofs.
