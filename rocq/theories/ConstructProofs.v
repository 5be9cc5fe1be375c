(** Proofs for C68, circuits only. *)
From Coq Require Import List Bool Arith NArith Lia.
From Verif Require Import Criterion Config SeqFlow SeqSpec Perm PermSpec PermProofs Prep PrepSpec PrepProofs PrepProofs2 PrepProofs3 Passes PassesSpec StateGen StateGenSpec StateGenProofs2
  Stim StimSpec StimProofs PropStateGen.
Import ListNotations.

Section P.
Context {A : Type} (actsOn : A -> nat -> bool).
Notation circ := (circ A).
Notation wf := wf_circ.
Notation undisturbed := PrepSpec.undisturbed.
Definition plain (c : circ) : Prop := forall p q, q_anc c q = true -> maps (q_lay c) p q -> undisturbed c p q.

(* an undisturbed qubit stays such *)
Lemma shrunk_undisturbed_down f (c s : circ) p q : increasing f -> wf c -> wf s -> shrunk actsOn f c s -> maps (q_lay s) p q ->
  undisturbed c p (f q) -> undisturbed s p q.
Proof.
  intros I W Ws (_ & _ & O & _) M [U|[U1 U2]].
  - left. specialize (O p (ex_intro _ q M)). unfold maps in *. rewrite U in O. destruct (qfind p (q_out s)) as [v|]; [|discriminate].
    injection O as O. apply (inc_inj f I) in O. congruence.
  - right. split.
    + intros (v & V). apply U1. exists (f v). specialize (O p (ex_intro _ q M)). unfold maps in *. rewrite O, V. reflexivity.
    + intros (p' & P'). apply U2. exists p'. assert (K : keys (q_lay s) p'). { destruct Ws as (_ & _ & _ & _ & _ & _ & KO). apply KO. now exists q. }
      specialize (O p' K). unfold maps in *. rewrite O, P'. reflexivity.
Qed.
Lemma shrunk_plain f (c s : circ) : increasing f -> wf c -> wf s -> shrunk actsOn f c s -> plain c -> plain s.
Proof.
  intros I W Ws S P p q Aq M. apply (shrunk_undisturbed_down f c s p q I W Ws S M). destruct S as (_ & L & _ & _ & F). apply P.
  - assert (B : q < q_n s) by (eapply wf_lt; eauto). destruct (F q B) as (_ & E & _). congruence.
  - apply L, M.
Qed.
Lemma restored_undisturbed b (L L2 : circ) p q : restored b L L2 -> q < b -> undisturbed L p q -> undisturbed L2 p q.
Proof.
  intros (_ & _ & _ & _ & O1 & O2 & _) B [U|[U1 U2]]; [left; apply O2; auto|right]. split.
  - intros (v & V). apply U1. exists v. now apply O1.
  - intros (p' & V). apply U2. exists p'. now apply O1.
Qed.

(* the common ancillaries after the preparation: undisturbed in both circuits, or idle and undisturbed in one of them *)
Definition calm (c : circ) (q : nat) : Prop := forall p, maps (q_lay c) p q -> idle actsOn c p /\ undisturbed c p q.
Definition quiet (c : circ) (q : nat) : Prop := forall p, maps (q_lay c) p q -> undisturbed c p q.

Lemma padded_calm n (Sm S2 : circ) q : wf Sm -> (forall o p, In o (q_ops Sm) -> actsOn o p = true -> keys (q_lay Sm) p) ->
  padded n Sm S2 -> q_n Sm <= q -> calm S2 q.
Proof.
  intros (_ & _ & V & _ & _ & VO & KO) I (O & _ & (_ & F) & E & _) Lq p M. unfold maps in M. rewrite F in M.
  destruct (qfind p (q_lay Sm)) as [w|] eqn:W.
  - injection M as ->. assert (q < q_n Sm) by (apply V; now exists p). lia.
  - assert (NK : ~ keys (q_lay Sm) p) by (intros (w & X); unfold maps in X; congruence). split.
    + intros o Ho. rewrite O in Ho. destruct (actsOn o p) eqn:B; auto. exfalso. apply NK. eauto.
    + right. rewrite E. split; [auto|]. intros X. apply VO in X. lia.
Qed.
Lemma padded_quiet n (Sm S2 : circ) q : wf Sm -> padded n Sm S2 -> q < q_n Sm -> quiet Sm q -> quiet S2 q.
Proof.
  intros (_ & _ & V & _) (_ & _ & (_ & F) & E & _) Lq H p M. unfold maps in M. rewrite F in M.
  destruct (qfind p (q_lay Sm)) as [w|] eqn:W.
  - injection M as ->. destruct (H p W) as [U|U]; [left|right]; now rewrite E.
  - destruct (_ && _) eqn:B; [|discriminate]. injection M as <-. apply andb_prop in B as [B _]. apply Nat.leb_le in B. lia.
Qed.
Lemma restored_quiet b (L L2 : circ) q : restored b L L2 -> q < b -> quiet L q -> quiet L2 q.
Proof. intros R Lq H p M. pose proof R as (_ & _ & EL & _). rewrite EL in M. eapply restored_undisturbed; eauto. Qed.

Lemma setup_ancillaries (L Sm L2 S2 : circ) : wf L -> wf Sm -> q_n Sm <= q_n L -> restored (q_n Sm) L L2 -> padded (q_n L) Sm S2 ->
  (forall o p, In o (q_ops Sm) -> actsOn o p = true -> keys (q_lay Sm) p) -> plain L -> plain Sm ->
  (forall q, q < q_n Sm -> q_anc L q = q_anc Sm q) ->
  (forall q, q < q_n L -> q_anc L2 q = q_anc S2 q) /\
  (forall q, q < q_n L -> q_anc L2 q = true -> q_anc S2 q = true -> (quiet L2 q /\ quiet S2 q) \/ calm S2 q).
Proof.
  intros WL WS Le R P I PL PS E. pose proof R as (_ & _ & _ & _ & _ & _ & Rlow & Rhigh). pose proof P as (_ & _ & _ & _ & Plow & Phigh). split.
  - intros q Lq. destruct (Nat.lt_ge_cases q (q_n Sm)) as [B|B].
    + rewrite (proj1 (Rlow q B)), (proj1 (Plow q B)). auto.
    + destruct (wf_val L q WL Lq) as (p & M). rewrite (proj1 (Rhigh p q M B)), (proj1 (Phigh q (conj B Lq))). reflexivity.
  - intros q Lq A1 A2. destruct (Nat.lt_ge_cases q (q_n Sm)) as [B|B]; [left|right; eapply padded_calm; eauto]. split.
    + rewrite (proj1 (Rlow q B)) in A1. eapply restored_quiet; eauto. intros p M. auto.
    + rewrite (proj1 (Plow q B)) in A2. eapply padded_quiet; eauto. intros p M. auto.
Qed.

Lemma shrunk_inside f (c s : circ) : wf c -> shrunk actsOn f c s -> (forall o p, In o (q_ops c) -> actsOn o p = true -> keys (q_lay c) p) ->
  forall o p, In o (q_ops s) -> actsOn o p = true -> keys (q_lay s) p.
Proof.
  intros W (O & _ & _ & D & _) I o p Ho Hp. rewrite O in Ho. destruct (keys_dec (q_lay s) p) as [K|K]; auto. exfalso.
  destruct (I o p Ho Hp) as (l & M). destruct (D p l M K) as [X _]. rewrite (X o Ho) in Hp. discriminate.
Qed.

Lemma min_below f (c s : circ) : shrunk actsOn f c s -> forall q, q < q_n s -> f q < q_n c.
Proof. intros (_ & _ & _ & _ & F) q B. now apply F. Qed.

Lemma prepared_ancillaries nd (c1 c2 c1' c2' : circ) : wf c1 -> wf c2 ->
  (forall o p, In o (q_ops c1) -> actsOn o p = true -> keys (q_lay c1) p) -> (forall o p, In o (q_ops c2) -> actsOn o p = true -> keys (q_lay c2) p) ->
  plain c1 -> plain c2 -> (forall q, q < Nat.min (q_n c1) (q_n c2) -> q_anc c1 q = q_anc c2 q) -> prepare actsOn nd c1 c2 = PVal (c1', c2') ->
  (forall q, q < q_n c1' -> q_anc c1' q = q_anc c2' q) /\
  (forall q, q < q_n c1' -> q_anc c1' q = true -> q_anc c2' q = true -> (quiet c1' q /\ quiet c2' q) \/ calm c1' q \/ calm c2' q).
Proof.
  intros W1 W2 I1 I2 P1 P2 E EP. destruct (prepare_main actsOn nd c1 c2 W1 W2) as (s1 & s2 & f & d1 & d2 & EE & F & X1 & X2 & S1 & S2 & _ & _ & H).
  rewrite EP in EE. injection EE as <- <-.
  pose proof (shrunk_plain f c1 s1 F W1 X1 S1 P1) as Q1. pose proof (shrunk_plain f c2 s2 F W2 X2 S2 P2) as Q2.
  pose proof (shrunk_inside f c1 s1 W1 S1 I1) as J1. pose proof (shrunk_inside f c2 s2 W2 S2 I2) as J2.
  assert (EA : forall q, q < q_n s1 -> q < q_n s2 -> q_anc s1 q = q_anc s2 q).
  { intros q B1 B2. pose proof (min_below f c1 s1 S1 q B1). pose proof (min_below f c2 s2 S2 q B2).
    destruct S1 as (_ & _ & _ & _ & G1), S2 as (_ & _ & _ & _ & G2). destruct (G1 q B1) as (_ & -> & _), (G2 q B2) as (_ & -> & _). apply E. lia. }
  destruct (Nat.ltb_spec (q_n s2) (q_n s1)) as [B|B]; destruct H as [R P].
  - destruct (setup_ancillaries s1 s2 c1' c2' X1 X2 ltac:(lia) R P J2 Q1 Q2) as [T1 T2]. { intros q Lq. apply EA; lia. }
    assert (En : q_n c1' = q_n s1) by (now destruct R as (_ & ? & _)). rewrite En. split; [exact T1|]. intros q Lq A1 A2. destruct (T2 q Lq A1 A2); auto.
  - destruct (setup_ancillaries s2 s1 c2' c1' X2 X1 B R P J1 Q2 Q1) as [T1 T2]. { intros q Lq. symmetry. apply EA; lia. }
    assert (En : q_n c1' = q_n s2) by (now destruct P as (_ & ? & _)). rewrite En. split.
    + intros q Lq. symmetry. auto.
    + intros q Lq A1 A2. destruct (T2 q Lq A2 A1) as [[]|]; auto.
Qed.
Lemma prepared_no_ancillaries nd (c1 c2 c1' c2' : circ) : wf c1 -> wf c2 ->
  (forall o p, In o (q_ops c1) -> actsOn o p = true -> keys (q_lay c1) p) -> (forall o p, In o (q_ops c2) -> actsOn o p = true -> keys (q_lay c2) p) ->
  (forall q, q_anc c1 q = false) -> (forall q, q_anc c2 q = false) -> prepare actsOn nd c1 c2 = PVal (c1', c2') -> canHandle actsOn c1' c2' = true.
Proof.
  intros W1 W2 I1 I2 N1 N2 EP.
  destruct (prepare_flags actsOn nd c1 c2 c1' c2' W1 W2 EP) as (_ & _ & En & M1 & M2 & J1 & J2 & W).
  apply (canHandle_iff actsOn c1' c2' W En M1 M2 J1 J2).
  destruct (prepare_main actsOn nd c1 c2 W1 W2) as (s1 & s2 & f & d1 & d2 & EE & F & X1 & X2 & S1 & S2 & _ & _ & H).
  rewrite EP in EE. injection EE as <- <-.
  pose proof (shrunk_inside f c1 s1 W1 S1 I1) as K1. pose proof (shrunk_inside f c2 s2 W2 S2 I2) as K2.
  assert (Z : forall (c s : circ), wf s -> shrunk actsOn f c s -> (forall q, q_anc c q = false) -> forall q, q < q_n s -> q_anc s q = false).
  { intros c s _ (_ & _ & _ & _ & G) N q B. destruct (G q B) as (_ & -> & _). apply N. }
  intros q p1 p2 Lq A1 A2 P1 P2.
  destruct (Nat.ltb_spec (q_n s2) (q_n s1)) as [B|B]; destruct H as [R P].
  - pose proof R as (_ & Es & _ & _ & _ & _ & Rl & _). destruct (Nat.lt_ge_cases q (q_n s2)) as [D|D].
    + rewrite (proj1 (Rl q D)), (Z c1 s1) in A1; auto; [discriminate|lia].
    + right. apply (padded_calm (q_n s1) s2 c2' q X2 K2 P D p2 P2).
  - pose proof P as (_ & Es & _ & _ & Pl & _). destruct (Nat.lt_ge_cases q (q_n s1)) as [D|D].
    + rewrite (proj1 (Pl q D)), (Z c1 s1) in A1; auto. discriminate.
    + left. apply (padded_calm (q_n s2) s1 c1' q X1 K1 P D p1 P1).
Qed.
End P.

(* the stimuli never run out *)
Section Supply.
Context {MT : Type} (word : MT -> N * MT) (unif : N -> MT -> N * MT).
Lemma any_type_supplies {A} (c1 c2 : circ A) t (e : env stimulus (gen MT)) g n n' : stimuli_of word unif c1 c2 t e -> fair unif -> in_range unif -> g_used g = [] ->
  (t = Stabilizer -> 0 < primary c1) -> clamp_sims true t (N.of_nat (primary c1)) n = Some n' -> gen_supplies e g n'.
Proof.
  intros S F IR G ST CL. set (total := Nat.max (q_n c1) (q_n c2)). set (anc := total - primary c1).
  assert (LP : primary c1 <= total) by (pose proof (primary_le c1); unfold total; lia). assert (LA : total - anc = primary c1) by (unfold anc; lia).
  assert (LT : anc <= total) by (unfold anc; lia). destruct t.
  - apply (C17_generator_suffices word unif total anc e g n n'); auto. rewrite LA. exact CL.
  - intros l g' _ _ X. destruct (generate MT word unif (e_ndebug e) 0 total anc Random1QBasis g') as [s g2| | |] eqn:E.
    + assert (Y : e_gen e g' = Some (s, g2)) by (apply S; now exists 0). congruence.
    + revert E. unfold generate, mapg, gen1Q. rewrite (proj2 (Nat.ltb_ge total anc)) by lia. destruct (bases _ _ _ _); discriminate.
    + revert E. unfold generate, mapg, gen1Q. rewrite (proj2 (Nat.ltb_ge total anc)) by lia. destruct (bases _ _ _ _); discriminate.
    + revert E. unfold generate, mapg, gen1Q. rewrite (proj2 (Nat.ltb_ge total anc)) by lia. destruct (bases _ _ _ _); discriminate.
  - specialize (ST eq_refl). intros l g' _ _ X. destruct (generate MT word unif (e_ndebug e) 0 total anc Stabilizer g') as [s g2| | |] eqn:E.
    + assert (Y : e_gen e g' = Some (s, g2)) by (apply S; now exists 0). congruence.
    + revert E. unfold generate, mapg, genStabilizer. rewrite (proj2 (Nat.ltb_ge total anc)), LA by lia. destruct (primary c1); [lia|]. destruct (word _); discriminate.
    + revert E. unfold generate, mapg, genStabilizer. rewrite (proj2 (Nat.ltb_ge total anc)), LA by lia. destruct (primary c1); [lia|]. destruct (word _); discriminate.
    + revert E. unfold generate, mapg, genStabilizer. rewrite (proj2 (Nat.ltb_ge total anc)), LA by lia. destruct (primary c1); [lia|]. destruct (word _); discriminate.
Qed.
End Supply.
Lemma supplied_list {Stim Gen} (e : env Stim Gen) n : forall g, gen_supplies e g (N.of_nat n) -> exists l g', draws e g l g' /\ length l = n.
Proof.
  induction n as [|n IH]; intros g H; [exists [], g; split; [constructor|reflexivity]|].
  destruct (e_gen e g) as [[s g1]|] eqn:E; [|exfalso; apply (H [] g (draws_nil e g)); [cbn [length]; lia|exact E]].
  destruct (IH g1) as (l & g' & D & L). { intros l g' D Ll. apply (H (s :: l) g'); [econstructor; eauto|cbn [length]; lia]. }
  exists (s :: l), g'. split; [econstructor; eauto|cbn; congruence].
Qed.
