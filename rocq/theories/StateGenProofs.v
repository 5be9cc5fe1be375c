From Coq Require Import List Bool NArith Arith Lia FinFun.
From Verif Require Import Criterion Config StateGen StateGenSpec.
Import ListNotations.

Lemma set_nth_length l i : length (set_nth l i) = length l.
Proof. revert i; induction l as [|b l IH]; intros [|i]; cbn; auto. Qed.
Lemma set_nth_nth l i j : nth j (set_nth l i) false = if (j =? i) && (i <? length l) then true else nth j l false.
Proof.
  revert i j; induction l as [|b l IH]; intros [|i] [|j]; cbn; auto.
  - now rewrite andb_false_r.
  - rewrite IH. reflexivity.
Qed.
Lemma fill_gen (f : nat -> bool) (is : list nat) (bs : list bool) :
  length (fold_left (fun bs i => if f i then set_nth bs i else bs) is bs) = length bs /\
  forall j, nth j (fold_left (fun bs i => if f i then set_nth bs i else bs) is bs) false
    = (existsb (Nat.eqb j) is && (j <? length bs) && f j) || nth j bs false.
Proof.
  revert bs; induction is as [|i is IH]; intros bs; cbn [fold_left existsb]; [split; auto|].
  destruct (IH (if f i then set_nth bs i else bs)) as [L R]. split.
  - rewrite L. destruct (f i); auto using set_nth_length.
  - intros j. rewrite R. destruct (f i) eqn:F.
    + rewrite set_nth_length, set_nth_nth. destruct (Nat.eqb_spec j i) as [->|N].
      * rewrite F. cbn [orb andb]. destruct (i <? length bs), (existsb (Nat.eqb i) is), (nth i bs false); reflexivity.
      * cbn. auto.
    + destruct (Nat.eqb_spec j i) as [->|N]; cbn; auto. rewrite F, !andb_false_r. auto.
Qed.
Lemma nth_repeat_false j n : nth j (repeat false n) false = false.
Proof. revert j; induction n; intros [|j]; cbn; auto. Qed.
Lemma existsb_seq j r : existsb (Nat.eqb j) (seq 0 r) = (j <? r).
Proof.
  apply eq_true_iff_eq. rewrite existsb_exists, Nat.ltb_lt. split.
  - intros (x & I & E). apply Nat.eqb_eq in E. subst. apply in_seq in I. lia.
  - intros L. exists j. split; [apply in_seq; lia|apply Nat.eqb_refl].
Qed.
Lemma fill_spec total r f : r <= total -> length (fill total r f) = total /\
  forall j, nth j (fill total r f) false = (j <? r) && f j.
Proof.
  intros L. unfold fill. destruct (fill_gen f (seq 0 r) (repeat false total)) as [A B]. rewrite repeat_length in *.
  split; [exact A|]. intros j. rewrite B, nth_repeat_false, existsb_seq, orb_false_r.
  destruct (Nat.ltb_spec j r); cbn [andb]; auto. destruct (Nat.ltb_spec j total); auto; lia.
Qed.

Lemma fill_basis_state total r v : r <= total -> basis_state total r v (fill total r (fun i => N.testbit v (N.of_nat i))).
Proof.
  intros L. destruct (fill_spec total r (fun i => N.testbit v (N.of_nat i)) L) as [A B]. split; [exact A|]. split; intros i Li; rewrite B.
  - destruct (Nat.ltb_spec i r); [auto|lia].
  - destruct (Nat.ltb_spec i r); [lia|auto].
Qed.

Section P.
Context {MT : Type} (word : MT -> N * MT) (unif : N -> MT -> N * MT).
Notation drawn := (drawn MT unif).
Notation engine := (engine MT unif).
Notation retry := (retry MT unif).
Notation genC := (genComputational MT word unif).

Lemma memb v used : existsb (N.eqb v) used = true <-> In v used.
Proof. rewrite existsb_exists. split; [intros (x & I & E); apply N.eqb_eq in E; subst; auto|intros I; exists v; split; auto; apply N.eqb_refl]. Qed.

Lemma retry_some fuel hi used m v m' : retry fuel hi used m = Some (v, m') <->
  exists n, n < fuel /\ drawn n hi m = v /\ ~ In v used /\ (forall k, k < n -> In (drawn k hi m) used) /\ m' = engine (S n) hi m.
Proof.
  revert m; induction fuel as [|f IH]; intros m; cbn [StateGen.retry].
  - split; [discriminate|]. intros (n & L & _). lia.
  - destruct (unif hi m) as [w m1] eqn:U. destruct (existsb (N.eqb w) used) eqn:X.
    + apply memb in X. rewrite IH. split.
      * intros (n & L & D & NI & K & E). exists (S n). split; [lia|]. cbn [StateGen.drawn StateGen.engine]. rewrite U. cbn [snd].
        repeat split; auto. intros [|k] Lk; cbn [StateGen.drawn]; rewrite U; cbn; auto. apply K. lia.
      * intros (n & L & D & NI & K & E). destruct n as [|n].
        -- cbn in D. rewrite U in D. cbn in D. subst. contradiction.
        -- cbn [StateGen.drawn StateGen.engine] in *. rewrite U in *. cbn [snd] in *. exists n. repeat split; auto; try lia.
           intros k Lk. specialize (K (S k) ltac:(lia)). cbn [StateGen.drawn] in K. rewrite U in K. exact K.
    + assert (NI : ~ In w used) by (rewrite <- memb, X; discriminate). split.
      * intros E. injection E as <- <-. exists 0. cbn. rewrite U. cbn. repeat split; auto; try lia.
      * intros (n & L & D & NI' & K & E). destruct n as [|n].
        -- cbn in *. rewrite U in *. cbn in *. congruence.
        -- specialize (K 0 ltac:(lia)). cbn in K. rewrite U in K. contradiction.
Qed.

Lemma drawn_le hi n m : in_range unif -> (drawn n hi m <= hi)%N.
Proof. intros R. revert m; induction n; intros m; cbn; auto. Qed.

Lemma shiftl_pow r : N.shiftl 1 (N.of_nat r) = (2 ^ N.of_nat r)%N.
Proof. rewrite N.shiftl_1_l. reflexivity. Qed.
Lemma pow_pos r : (0 < 2 ^ N.of_nat r)%N.
Proof. pose proof (N.pow_nonzero 2 (N.of_nat r)). lia. Qed.
Lemma le_pred_lt r v : (v <= 2 ^ N.of_nat r - 1)%N <-> (v < 2 ^ N.of_nat r)%N.
Proof. pose proof (pow_pos r). lia. Qed.

Lemma genC_state nd fuel total anc g bs g' : total - anc <= 63 ->
  genC nd fuel total anc g = GState bs g' <->
  anc <= total /\ (nd = false -> N.of_nat (length (g_used g)) <> (2 ^ N.of_nat (total - anc))%N) /\
  exists n v, n < fuel /\ drawn n (2 ^ N.of_nat (total - anc) - 1) (g_mt g) = v /\ ~ In v (g_used g) /\
    (forall k, k < n -> In (drawn k (2 ^ N.of_nat (total - anc) - 1) (g_mt g)) (g_used g)) /\
    bs = fill total (total - anc) (fun i => N.testbit v (N.of_nat i)) /\
    g' = mkGen (engine (S n) (2 ^ N.of_nat (total - anc) - 1) (g_mt g)) (v :: g_used g).
Proof.
  intros R. unfold genComputational. destruct (Nat.ltb_spec total anc) as [L|L].
  { split; [discriminate|]. intros (A & _). lia. }
  destruct (Nat.leb_spec (total - anc) 63); [|lia]. rewrite shiftl_pow.
  destruct (negb nd && (N.of_nat (length (g_used g)) =? 2 ^ N.of_nat (total - anc))%N) eqn:X.
  { apply andb_true_iff in X as [X1 X2]. apply N.eqb_eq in X2. split; [discriminate|]. intros (_ & A & _).
    destruct nd; [discriminate|]. exfalso. apply A; auto. }
  assert (Y : nd = false -> N.of_nat (length (g_used g)) <> (2 ^ N.of_nat (total - anc))%N).
  { intros ->. cbn in X. now apply N.eqb_neq in X. }
  destruct (retry fuel (2 ^ N.of_nat (total - anc) - 1) (g_used g) (g_mt g)) as [[v m']|] eqn:E.
  - apply retry_some in E as (n & Ln & D & NI & K & EM). split.
    + intros Q. injection Q as <- <-. split; auto. split; auto. exists n, v. subst m'. repeat split; auto.
    + intros (_ & _ & n' & v' & Ln' & D' & NI' & K' & B' & G').
      assert (n' = n). { destruct (Nat.lt_trichotomy n n') as [Q|[Q|Q]]; auto; exfalso.
        - apply NI. rewrite <- D. now apply K'.
        - apply NI'. rewrite <- D'. now apply K. }
      subst n'. assert (v' = v) by congruence. subst v'. rewrite B', G', EM, D. reflexivity.
  - split; [discriminate|]. intros (_ & _ & n' & v' & Ln' & D' & NI' & K' & B' & G').
    assert (Z : retry fuel (2 ^ N.of_nat (total - anc) - 1) (g_used g) (g_mt g) = Some (v', engine (S n') (2 ^ N.of_nat (total - anc) - 1) (g_mt g))).
    { apply retry_some. exists n'. repeat split; auto. }
    congruence.
Qed.

Lemma genC_abort nd fuel total anc g : total - anc <= 63 -> 
  genC nd fuel total anc g = GAbort <-> anc <= total /\ nd = false /\ N.of_nat (length (g_used g)) = (2 ^ N.of_nat (total - anc))%N.
Proof.
  intros R. unfold genComputational. destruct (Nat.ltb_spec total anc) as [L|L].
  { split; [discriminate|]. intros (A & _). lia. }
  destruct (Nat.leb_spec (total - anc) 63); [|lia]. rewrite shiftl_pow.
  destruct nd; cbn [negb andb].
  - split; [|intros (_ & A & _); discriminate]. destruct (retry _ _ _ _) as [[v m']|]; discriminate.
  - destruct (N.eqb_spec (N.of_nat (length (g_used g))) (2 ^ N.of_nat (total - anc))).
    + split; auto.
    + split; [|intros (_ & _ & A); contradiction]. destruct (retry _ _ _ _) as [[v m']|]; discriminate.
Qed.

Lemma genC_out nd total anc g : total - anc <= 63 -> anc <= total ->
  (nd = false -> N.of_nat (length (g_used g)) <> (2 ^ N.of_nat (total - anc))%N) ->
  (forall fuel, genC nd fuel total anc g = GOut) <-> (forall n, In (drawn n (2 ^ N.of_nat (total - anc) - 1) (g_mt g)) (g_used g)).
Proof.
  intros R L Y. unfold genComputational. destruct (Nat.ltb_spec total anc) as [?|_]; [lia|].
  destruct (Nat.leb_spec (total - anc) 63); [|lia]. rewrite shiftl_pow.
  destruct (negb nd && (N.of_nat (length (g_used g)) =? 2 ^ N.of_nat (total - anc))%N) eqn:X.
  { exfalso. apply andb_true_iff in X as [X1 X2]. apply N.eqb_eq in X2. destruct nd; [discriminate|]. apply Y; auto. }
  split.
  - intros F n. induction n as [n IH] using lt_wf_ind.
    destruct (in_dec N.eq_dec (drawn n (2 ^ N.of_nat (total - anc) - 1) (g_mt g)) (g_used g)) as [I|NI]; auto.
    specialize (F (S n)).
    assert (Z : retry (S n) (2 ^ N.of_nat (total - anc) - 1) (g_used g) (g_mt g) = Some (drawn n (2 ^ N.of_nat (total - anc) - 1) (g_mt g), engine (S n) (2 ^ N.of_nat (total - anc) - 1) (g_mt g))).
    { apply retry_some. exists n. repeat split; auto. }
    rewrite Z in F. discriminate.
  - intros F fuel. destruct (retry _ _ _ _) as [[v m']|] eqn:E; auto.
    apply retry_some in E as (n & _ & D & NI & _). exfalso. apply NI. rewrite <- D. apply F.
Qed.

Lemma genC_shape nd fuel total anc g bs g' : in_range unif -> total - anc <= 63 ->
  genC nd fuel total anc g = GState bs g' ->
  exists v, (v < 2 ^ N.of_nat (total - anc))%N /\ ~ In v (g_used g) /\ g_used g' = v :: g_used g /\ basis_state total (total - anc) v bs.
Proof.
  intros IR R E. apply genC_state in E; auto. destruct E as (L & _ & n & v & _ & D & NI & _ & B & G).
  exists v. repeat split.
  - apply le_pred_lt. rewrite <- D. now apply drawn_le.
  - auto.
  - subst g'. reflexivity.
  - subst bs. apply fill_spec. lia.
  - intros i Li. subst bs. destruct (fill_spec total (total - anc) (fun i => N.testbit v (N.of_nat i))) as [_ F]; [lia|].
    rewrite F. destruct (Nat.ltb_spec i (total - anc)); [auto|lia].
  - intros i Li. subst bs. destruct (fill_spec total (total - anc) (fun i => N.testbit v (N.of_nat i))) as [_ F]; [lia|].
    rewrite F. destruct (Nat.ltb_spec i (total - anc)); [lia|auto].
Qed.

Lemma basis_state_inj total r v w bs : basis_state total r v bs -> basis_state total r w bs ->
  (v < 2 ^ N.of_nat r)%N -> (w < 2 ^ N.of_nat r)%N -> v = w.
Proof.
  intros (_ & A & _) (_ & B & _) Lv Lw. apply N.bits_inj. intros n.
  destruct (N.lt_ge_cases n (N.of_nat r)) as [L|L].
  - specialize (A (N.to_nat n) ltac:(lia)). specialize (B (N.to_nat n) ltac:(lia)). rewrite N2Nat.id in *. congruence.
  - rewrite <- (N.mod_small v _ Lv), <- (N.mod_small w _ Lw), !N.mod_pow2_bits_high; auto.
Qed.

(** the list of values behind a sequence of stimuli *)
Lemma stimuli_values nd total anc g l g' : in_range unif -> total - anc <= 63 ->
  stimuli word unif nd total anc ComputationalBasis g l g' ->
  exists vs, Forall2 (fun v s => exists bs, s = SBits bs /\ basis_state total (total - anc) v bs /\ (v < 2 ^ N.of_nat (total - anc))%N) vs l /\
    NoDup vs /\ (forall v, In v vs -> ~ In v (g_used g)) /\ g_used g' = rev vs ++ g_used g.
Proof.
  intros IR R S. induction S as [g|g fuel s g1 l g2 E S IH].
  - exists []. split; [constructor|]. split; [constructor|]. split; [intros ? []|reflexivity].
  - cbn in E. destruct (genC nd fuel total anc g) as [bs g1'| | |] eqn:EG; try discriminate. cbn in E. injection E as <- <-.
    apply genC_shape in EG as (v & Lv & NI & U & B); auto. destruct IH as (vs & F & ND & NU & U2).
    exists (v :: vs). split; [|split; [|split]].
    + constructor; auto. exists bs. auto.
    + constructor; auto. intros I. apply (NU v I). rewrite U. now left.
    + intros w [->|I]; auto. intros I2. apply (NU w I). rewrite U. now right.
    + rewrite U2, U. cbn. rewrite <- app_assoc. reflexivity.
Qed.

Lemma stimuli_nodup nd total anc g l g' : in_range unif -> total - anc <= 63 ->
  stimuli word unif nd total anc ComputationalBasis g l g' -> NoDup l.
Proof.
  intros IR R S. destruct (stimuli_values _ _ _ _ _ _ IR R S) as (vs & F & ND & _). clear S.
  induction F as [|v s vs l (bs & -> & B & L) F IH]; [constructor|]. inversion ND; subst. constructor; auto.
  intros I. assert (exists w, In w vs /\ basis_state total (total - anc) w bs /\ (w < 2 ^ N.of_nat (total - anc))%N) as (w & Iw & Bw & Lw).
  { clear - F I. induction F as [|v' s' vs' l' (bs' & -> & B' & L') F IH]; [destruct I|]. destruct I as [E|I].
    - injection E as ->. exists v'. split; [now left|]. auto.
    - destruct (IH I) as (w & A & B). exists w. split; [now right|auto]. }
  apply H1. rewrite (basis_state_inj total (total - anc) v w bs); auto.
Qed.

Lemma Forall2_len {A B} (P : A -> B -> Prop) l l' : Forall2 P l l' -> length l = length l'.
Proof. induction 1; cbn; auto. Qed.

(** numbers below 2^r *)
Definition below (n : N) : list N := map N.of_nat (seq 0 (N.to_nat n)).
Lemma in_below n v : In v (below n) <-> (v < n)%N.
Proof. unfold below. rewrite in_map_iff. split.
  - intros (x & <- & I). apply in_seq in I. lia.
  - intros L. exists (N.to_nat v). split; [lia|]. apply in_seq. lia. Qed.
Lemma below_len n : length (below n) = N.to_nat n.
Proof. unfold below. now rewrite map_length, seq_length. Qed.
Lemma below_nodup n : NoDup (below n).
Proof. unfold below. apply FinFun.Injective_map_NoDup; [intros a b E; lia|apply seq_NoDup]. Qed.

Lemma bounded_nodup_length n l : NoDup l -> (forall v, In v l -> (v < n)%N) -> (N.of_nat (length l) <= n)%N.
Proof.
  intros ND B. assert (length l <= length (below n)) as L. { apply NoDup_incl_length; auto. intros v I. apply in_below; auto. }
  rewrite below_len in L. lia.
Qed.
Lemma full_iff n l : NoDup l -> (forall v, In v l -> (v < n)%N) -> (N.of_nat (length l) = n <-> forall v, (v < n)%N -> In v l).
Proof.
  intros ND B. split.
  - intros L v Lv. assert (I : incl (below n) l).
    { apply NoDup_length_incl; auto.
      - rewrite below_len. lia.
      - intros w Iw. apply in_below; auto. }
    apply I. now apply in_below.
  - intros A. pose proof (bounded_nodup_length n l ND B). assert (length (below n) <= length l).
    { apply NoDup_incl_length; [apply below_nodup|]. intros v I. apply A. now apply in_below. }
    rewrite below_len in *. lia.
Qed.

Lemma used_ok_kept nd total anc g l g' : in_range unif -> total - anc <= 63 ->
  stimuli word unif nd total anc ComputationalBasis g l g' -> used_ok (total - anc) g -> used_ok (total - anc) g' /\ length (g_used g') = length l + length (g_used g).
Proof.
  intros IR R S (ND & B). destruct (stimuli_values _ _ _ _ _ _ IR R S) as (vs & F & ND2 & NU & U).
  split; [split|].
  - rewrite U. clear - ND ND2 NU. assert (NoDup (rev vs)) by now apply NoDup_rev. 
    assert (forall v, In v (rev vs) -> ~ In v (g_used g)) as NU' by (intros v I; apply NU; now apply in_rev).
    clear ND2 NU. induction (rev vs) as [|a t IH]; cbn; auto. inversion H; subst. constructor.
    + rewrite in_app_iff. intros [I|I]; auto. apply (NU' a); auto. now left.
    + apply IH; auto. intros v I. apply NU'. now right.
  - intros v I. rewrite U in I. apply in_app_iff in I as [I|I]; auto. apply in_rev in I.
    clear - F I. induction F as [|? ? ? ? (bs & _ & _ & L)]; [destruct I|]; destruct I as [->|I]; auto.
  - rewrite U, app_length, rev_length. now rewrite (Forall2_len _ _ _ F).
Qed.

Lemma stimuli_count nd total anc g l g' : in_range unif -> total - anc <= 63 -> g_used g = [] ->
  stimuli word unif nd total anc ComputationalBasis g l g' -> (N.of_nat (length l) <= 2 ^ N.of_nat (total - anc))%N.
Proof.
  intros IR R U S. destruct (used_ok_kept _ _ _ _ _ _ IR R S) as ((ND & B) & L).
  { split; rewrite U; [constructor|intros ? []]. }
  rewrite U in L. cbn in L. rewrite Nat.add_0_r in L. rewrite <- L. now apply bounded_nodup_length.
Qed.

Lemma generate_returns nd total anc g : fair unif -> in_range unif -> total - anc <= 63 -> anc <= total -> used_ok (total - anc) g ->
  ~ all_used (total - anc) g -> returns word unif nd total anc ComputationalBasis g.
Proof.
  intros F IR R L (ND & B) NA.
  assert (exists v, (v < 2 ^ N.of_nat (total - anc))%N /\ ~ In v (g_used g)) as (v & Lv & NI).
  { destruct (Exists_dec (fun v => ~ In v (g_used g)) (below (2 ^ N.of_nat (total - anc)))) as [E|NE].
    - intros x. destruct (in_dec N.eq_dec x (g_used g)); [right|left]; tauto.
    - apply Exists_exists in E as (v & I & NI). exists v. split; auto. now apply in_below.
    - exfalso. apply NA. intros v Lv. apply in_below in Lv.
      destruct (in_dec N.eq_dec v (g_used g)) as [I|NI]; auto. exfalso. apply NE. apply Exists_exists. eauto. }
  destruct (F (2 ^ N.of_nat (total - anc) - 1)%N (g_mt g) v) as (n & D); [now apply le_pred_lt|].
  (* the least such n *)
  assert (exists n, ~ In (drawn n (2 ^ N.of_nat (total - anc) - 1) (g_mt g)) (g_used g) /\
             forall k, k < n -> In (drawn k (2 ^ N.of_nat (total - anc) - 1) (g_mt g)) (g_used g)) as (n0 & N0 & K0).
  { rewrite <- D in NI. clear - NI. induction n as [n IH] using lt_wf_ind.
    destruct (Exists_dec (fun k => ~ In (drawn k (2 ^ N.of_nat (total - anc) - 1) (g_mt g)) (g_used g)) (seq 0 n)) as [E|NE].
    - intros x. destruct (in_dec N.eq_dec (drawn x (2 ^ N.of_nat (total - anc) - 1) (g_mt g)) (g_used g)); [right|left]; tauto.
    - apply Exists_exists in E as (k & I & NK). apply in_seq in I. apply (IH k); auto. lia.
    - exists n. split; auto. intros k Lk. destruct (in_dec N.eq_dec (drawn k (2 ^ N.of_nat (total - anc) - 1) (g_mt g)) (g_used g)) as [I|NI']; auto.
      exfalso. apply NE. apply Exists_exists. exists k. split; auto. apply in_seq. lia. }
  exists (S n0). eexists. eexists. cbn [generate].
  assert (Z : genC nd (S n0) total anc g = GState (fill total (total - anc) (fun i => N.testbit (drawn n0 (2 ^ N.of_nat (total - anc) - 1) (g_mt g)) (N.of_nat i)))
     (mkGen (engine (S n0) (2 ^ N.of_nat (total - anc) - 1) (g_mt g)) (drawn n0 (2 ^ N.of_nat (total - anc) - 1) (g_mt g) :: g_used g))).
  { apply genC_state; auto. split; auto. split.
    - intros _ E. apply NA. exact (proj1 (full_iff _ _ ND B) E).
    - exists n0. eexists. repeat split; auto. }
  rewrite Z. reflexivity.
Qed.

Lemma never_iff nd total anc g : fair unif -> in_range unif -> total - anc <= 63 -> anc <= total -> used_ok (total - anc) g ->
  never_returns word unif nd total anc ComputationalBasis g <-> nd = true /\ all_used (total - anc) g.
Proof.
  intros F IR R L U. split.
  - intros N. assert (A : all_used (total - anc) g).
    { intros v Lv. destruct (in_dec N.eq_dec v (g_used g)) as [I|NI]; auto. exfalso.
      destruct (generate_returns nd total anc g) as (fuel & s & g' & E); auto.
      specialize (N fuel). congruence. }
    split; auto. destruct nd; auto. exfalso. specialize (N 0). cbn [generate] in N.
    assert (E : genC false 0 total anc g = GAbort). { apply genC_abort; auto. repeat split; auto. destruct U. apply full_iff; auto. }
    rewrite E in N. discriminate.
  - intros (-> & A) fuel. cbn [generate]. assert (E : genC true fuel total anc g = GOut).
    { apply genC_out; auto; [discriminate|]. intros n. apply A. apply le_pred_lt. now apply drawn_le. }
    rewrite E. reflexivity.
Qed.

Lemma abort_iff nd fuel total anc g : in_range unif -> total - anc <= 63 -> anc <= total -> used_ok (total - anc) g ->
  generate MT word unif nd fuel total anc ComputationalBasis g = GAbort <-> nd = false /\ all_used (total - anc) g.
Proof.
  intros IR R L (ND & B). cbn [generate]. transitivity (genC nd fuel total anc g = GAbort).
  - destruct (genC nd fuel total anc g); cbn; split; congruence.
  - rewrite genC_abort; auto. unfold all_used. rewrite <- full_iff; auto. tauto.
Qed.

(** a full enumeration *)
Lemma stimuli_snoc nd total anc t g l g1 fuel s g2 : stimuli word unif nd total anc t g l g1 ->
  generate MT word unif nd fuel total anc t g1 = GState s g2 -> stimuli word unif nd total anc t g (l ++ [s]) g2.
Proof. induction 1; intros E; cbn; econstructor; eauto. constructor. Qed.

Lemma supplies_n nd total anc g n : fair unif -> in_range unif -> total - anc <= 63 -> anc <= total -> g_used g = [] ->
  (N.of_nat n <= 2 ^ N.of_nat (total - anc))%N -> exists l g', stimuli word unif nd total anc ComputationalBasis g l g' /\ length l = n.
Proof.
  intros F IR R L U. induction n as [|n IH]; intros B.
  - exists [], g. split; [constructor|reflexivity].
  - destruct IH as (l & g1 & S & Ll); [lia|].
    destruct (used_ok_kept _ _ _ _ _ _ IR R S) as (UO & Lu). { split; rewrite U; [constructor|intros ? []]. }
    destruct (generate_returns nd total anc g1) as (fuel & s & g2 & E); auto.
    { intros A. destruct UO as (ND & BD). apply (full_iff _ _ ND BD) in A. rewrite U in Lu. cbn in Lu. lia. }
    exists (l ++ [s]), g2. split; [eapply stimuli_snoc; eauto|]. rewrite app_length. cbn. lia.
Qed.

Lemma basis_state_fun total r v bs bs' : basis_state total r v bs -> basis_state total r v bs' -> bs = bs'.
Proof.
  intros (L & A & B) (L' & A' & B'). apply (nth_ext _ _ false false); [congruence|]. intros n _.
  destruct (Nat.lt_ge_cases n r); [rewrite A, A'|rewrite B, B']; auto.
Qed.

Lemma all_states nd total anc g : fair unif -> in_range unif -> total - anc <= 63 -> anc <= total -> g_used g = [] ->
  exists l g', stimuli word unif nd total anc ComputationalBasis g l g' /\ N.of_nat (length l) = (2 ^ N.of_nat (total - anc))%N /\
    forall v bs, (v < 2 ^ N.of_nat (total - anc))%N -> basis_state total (total - anc) v bs -> In (SBits bs) l.
Proof.
  intros F IR R L U. destruct (supplies_n nd total anc g (N.to_nat (2 ^ N.of_nat (total - anc)))) as (l & g' & S & Ll); auto; [lia|].
  exists l, g'. split; auto. split; [lia|].
  destruct (stimuli_values _ _ _ _ _ _ IR R S) as (vs & F2 & ND & _ & U').
  assert (AL : forall v, (v < 2 ^ N.of_nat (total - anc))%N -> In v vs).
  { apply full_iff; auto.
    - intros v I. clear - F2 I. induction F2 as [|? ? ? ? (bs & _ & _ & Q)]; [destruct I|]; destruct I as [->|I]; auto.
    - rewrite (Forall2_len _ _ _ F2). lia. }
  intros v bs Lv B. specialize (AL v Lv). clear - F2 AL B.
  induction F2 as [|w s vs l (bs' & -> & B' & _) F2 IH]; [destruct AL|]. destruct AL as [->|I].
  - left. f_equal. eapply basis_state_fun; eauto.
  - right. auto.
Qed.

End P.
