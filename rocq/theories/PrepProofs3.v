From Coq Require Import List Bool Arith NArith Lia.
From Verif Require Import Criterion Config StateGen Perm PermSpec PermProofs Prep PrepSpec PrepProofs PrepProofs2 Passes PassesSpec.
Import ListNotations.

Section Prep3.
Context {A : Type} (actsOn : A -> nat -> bool).
Notation circ := (circ A).
Notation wf := (@wf_circ A).
Notation shrunk := (@shrunk A actsOn).

Lemma strip_both nd (c1 c2 : circ) : wf c1 -> wf c2 ->
  exists c1' c2' f, as_larger (strip actsOn nd) c1 c2 = PVal (c1', c2') /\ wf c1' /\ wf c2' /\ increasing f /\ shrunk f c1 c1' /\ shrunk f c2 c2' /\
    (forall q, Nat.min (q_n c1') (q_n c2') <= q -> Nat.min (q_n c1) (q_n c2) <= f q) /\
    (if q_n c2 <? q_n c1 then nothing_left actsOn c1' c2' /\ q_n c2' <= q_n c1' else nothing_left actsOn c2' c1' /\ q_n c1' <= q_n c2').
Proof.
  intros W1 W2. unfold as_larger. destruct (Nat.ltb_spec (q_n c2) (q_n c1)) as [L|L].
  - destruct (strip_main actsOn nd c1 c2 W1 W2 ltac:(lia)) as (c1' & c2' & f & -> & H). exists c1', c2', f. destruct H as (H1 & H2 & H3 & H4 & H5 & H6 & H7 & H8).
    do 6 (split; [auto|]). split; [intros q Lq; transitivity (q_n c2); [apply Nat.le_min_r|apply H8; lia]|tauto].
  - destruct (strip_main actsOn nd c2 c1 W2 W1 L) as (c2' & c1' & f & -> & H). exists c1', c2', f. cbn [pbind fst snd]. destruct H as (H1 & H2 & H3 & H4 & H5 & H6 & H7 & H8).
    do 6 (split; [auto|]). split; [intros q Lq; transitivity (q_n c1); [apply Nat.le_min_l|apply H8; lia]|tauto].
Qed.
Lemma setup_both (c1 c2 : circ) : wf c1 -> wf c2 ->
  exists c1' c2', as_larger setupAncillariesAndGarbage c1 c2 = PVal (c1', c2') /\
    (if q_n c2 <? q_n c1 then restored (q_n c2) c1 c1' /\ padded (q_n c1) c2 c2' else restored (q_n c1) c2 c2' /\ padded (q_n c2) c1 c1').
Proof.
  intros W1 W2. unfold as_larger. destruct (Nat.ltb_spec (q_n c2) (q_n c1)) as [L|L].
  - destruct (setup_main c1 c2 W1 W2 ltac:(lia)) as (c1' & c2' & -> & H). exists c1', c2'. tauto.
  - destruct (setup_main c2 c1 W2 W1 L) as (c2' & c1' & -> & H). exists c1', c2'. cbn [pbind fst snd]. tauto.
Qed.
Lemma restored_wf b (L L2 : circ) : wf L -> restored b L L2 -> wf L2.
Proof.
  intros (ML & IL & VL & MO & IO & VO & KO) (R1 & R2 & R3 & R4 & R5 & _). unfold wf_circ. rewrite R2, R3.
  do 4 (split; [auto|]). split; [|split].
  - intros k k' v X Y. eapply IO; eauto.
  - intros v (k & X). apply VO. exists k. auto.
  - intros p (v & X). apply KO. exists v. auto.
Qed.
(* the layout of the smaller circuit is complete iff no index of an added qubit was taken *)
Lemma padded_values n (Sm S2 : circ) : wf Sm -> q_n Sm <= n -> padded n Sm S2 ->
  forall v, values (q_lay S2) v <-> v < q_n Sm \/ (v < n /\ q_n Sm <= v /\ ~ keys (q_lay Sm) v).
Proof.
  intros (ML & IL & VL & _) Le (_ & _ & (MF & F) & _) v. unfold values, keys, maps in *. split.
  - intros (k & K). rewrite F in K. destruct (qfind k (q_lay Sm)) as [w|] eqn:E; [injection K as ->; left; apply VL; now exists k|].
    destruct (Nat.leb_spec (q_n Sm) k), (Nat.ltb_spec k n); cbn in K; try discriminate. injection K as ->. right. repeat split; auto.
    intros (w & X). congruence.
  - intros [H|(H1 & H2 & H3)].
    + apply VL in H as (k & K). exists k. unfold maps in K. now rewrite F, K.
    + exists v. rewrite F. destruct (qfind v (q_lay Sm)) as [w|] eqn:E; [exfalso; eauto|]. destruct (Nat.leb_spec (q_n Sm) v), (Nat.ltb_spec v n); auto; lia.
Qed.
Lemma padded_wf n (Sm S2 : circ) : wf Sm -> q_n Sm <= n -> padded n Sm S2 -> (forall j, q_n Sm <= j < n -> ~ keys (q_lay Sm) j) -> wf S2.
Proof.
  intros W Le P N. pose proof (padded_values n Sm S2 W Le P) as V. pose proof W as (ML & IL & VL & MO & IO & VO & KO). pose proof P as (P1 & P2 & (MF & F) & P4 & _).
  unfold wf_circ. rewrite P2, P4. split; [auto|]. split; [|split; [|split; [auto|split; [auto|split]]]].
  - intros k k' v X Y. unfold maps in X, Y. rewrite F in X, Y.
    destruct (qfind k (q_lay Sm)) as [w|] eqn:E, (qfind k' (q_lay Sm)) as [w'|] eqn:E'.
    + eapply IL; unfold maps; eauto; congruence.
    + injection X as ->. destruct (Nat.leb_spec (q_n Sm) k'), (Nat.ltb_spec k' n); cbn in Y; try discriminate. injection Y as ->.
      assert (v < q_n Sm) by (apply VL; now exists k). lia.
    + injection Y as ->. destruct (Nat.leb_spec (q_n Sm) k), (Nat.ltb_spec k n); cbn in X; try discriminate. injection X as ->.
      assert (v < q_n Sm) by (apply VL; now exists k'). lia.
    + destruct (_ && _) eqn:B in X; [|discriminate]. destruct (_ && _) eqn:B' in Y; [|discriminate]. congruence.
  - intros v. rewrite V. split; [lia|]. intros X. destruct (Nat.lt_ge_cases v (q_n Sm)); [tauto|right; auto].
  - intros v X. apply VO in X. lia.
  - intros p X. apply KO in X as (w & X). exists w. unfold maps in *. now rewrite F, X.
Qed.
Lemma lay_sub n (Sm S2 : circ) : padded n Sm S2 -> extends (q_lay Sm) (q_lay S2).
Proof. intros (_ & _ & (_ & F) & _) k v X. unfold maps in *. now rewrite F, X. Qed.

Lemma canHandle_iff (c1 c2 : circ) : wf c1 \/ wf c2 -> q_n c1 = q_n c2 -> is_map (q_lay c1) -> is_map (q_lay c2) -> injective_map (q_lay c1) -> injective_map (q_lay c2) ->
  canHandle actsOn c1 c2 = true <-> handled actsOn c1 c2.
Proof.
  intros W En M1 M2 I1 I2. unfold canHandle, handled. rewrite forallb_forall. split.
  - intros H q p1 p2 Lq A1 A2 X1 X2. specialize (H q). rewrite <- in_rev, in_seq in H. specialize (H ltac:(lia)). rewrite A1, A2 in H. cbn [andb] in H.
    rewrite (qkey_maps q (q_lay c1) p1), (qkey_maps q (q_lay c2) p2) in H by auto. apply orb_true_iff in H. rewrite !isIdle_iff in H. exact H.
  - intros H q I. apply in_rev in I. rewrite in_seq in I. destruct (q_anc c1 q) eqn:A1, (q_anc c2 q) eqn:A2; auto. cbn [andb].
    destruct (qkey q (q_lay c1)) as [p1|] eqn:K1, (qkey q (q_lay c2)) as [p2|] eqn:K2; auto.
    + apply qkey_some in K1, K2; auto. rewrite orb_true_iff, !isIdle_iff. eapply H; eauto. lia.
    + exfalso. apply qkey_none in K1, K2; auto. destruct W as [W|W].
      * destruct (wf_val c1 q W) as (p & P); [lia|]. apply K1. now exists p.
      * destruct (wf_val c2 q W) as (p & P); [lia|]. apply K2. now exists p.
Qed.
Lemma padded_inj n (Sm S2 : circ) : wf Sm -> padded n Sm S2 -> injective_map (q_lay S2).
Proof.
  intros (ML & IL & VL & _) (_ & _ & (MF & F) & _) k k' v X Y. unfold maps in X, Y. rewrite F in X, Y.
    destruct (qfind k (q_lay Sm)) as [w|] eqn:E, (qfind k' (q_lay Sm)) as [w'|] eqn:E'.
    + eapply IL; unfold maps; eauto; congruence.
    + injection X as ->. destruct (Nat.leb_spec (q_n Sm) k'), (Nat.ltb_spec k' n); cbn in Y; try discriminate. injection Y as ->.
      assert (v < q_n Sm) by (apply VL; now exists k). lia.
    + injection Y as ->. destruct (Nat.leb_spec (q_n Sm) k), (Nat.ltb_spec k n); cbn in X; try discriminate. injection X as ->.
      assert (v < q_n Sm) by (apply VL; now exists k'). lia.
    + destruct (_ && _) eqn:B in X; [|discriminate]. destruct (_ && _) eqn:B' in Y; [|discriminate]. congruence.
Qed.

(* preparation as a whole *)
Lemma prepare_main nd (c1 c2 : circ) : wf c1 -> wf c2 ->
  exists s1 s2 f c1' c2', prepare actsOn nd c1 c2 = PVal (c1', c2') /\ increasing f /\ wf s1 /\ wf s2 /\ shrunk f c1 s1 /\ shrunk f c2 s2 /\
    (forall q, Nat.min (q_n s1) (q_n s2) <= q -> Nat.min (q_n c1) (q_n c2) <= f q) /\
    (if q_n c2 <? q_n c1 then nothing_left actsOn s1 s2 else nothing_left actsOn s2 s1) /\
    (if q_n s2 <? q_n s1 then restored (q_n s2) s1 c1' /\ padded (q_n s1) s2 c2' else restored (q_n s1) s2 c2' /\ padded (q_n s2) s1 c1').
Proof.
  intros W1 W2. destruct (strip_both nd c1 c2 W1 W2) as (s1 & s2 & f & E & X1 & X2 & F & F1 & F2 & FT & N).
  destruct (setup_both s1 s2 X1 X2) as (c1' & c2' & E' & H). exists s1, s2, f, c1', c2'. unfold prepare. rewrite E. cbn [pbind fst snd]. rewrite E'.
  do 7 (split; [auto|]). split; [|exact H]. destruct (q_n c2 <? q_n c1); tauto.
Qed.
Lemma prepare_flags nd (c1 c2 c1' c2' : circ) : wf c1 -> wf c2 -> prepare actsOn nd c1 c2 = PVal (c1', c2') ->
  q_ops c1' = q_ops c1 /\ q_ops c2' = q_ops c2 /\ q_n c1' = q_n c2' /\
  is_map (q_lay c1') /\ is_map (q_lay c2') /\ injective_map (q_lay c1') /\ injective_map (q_lay c2') /\ (wf c1' \/ wf c2').
Proof.
  intros W1 W2 E. destruct (prepare_main nd c1 c2 W1 W2) as (s1 & s2 & f & d1 & d2 & E' & F & X1 & X2 & F1 & F2 & _ & _ & H). rewrite E in E'. injection E' as <- <-.
  destruct F1 as (O1 & _), F2 as (O2 & _). destruct (q_n s2 <? q_n s1) eqn:B.
  - apply Nat.ltb_lt in B. destruct H as [R P]. pose proof (restored_wf _ _ _ X1 R) as W'. pose proof (padded_inj _ _ _ X2 P) as Ij. destruct R as (R1 & R2 & _), P as (P1 & P2 & (P3 & _) & _).
    repeat split; try congruence; auto; apply W'.
  - apply Nat.ltb_ge in B. destruct H as [R P]. pose proof (restored_wf _ _ _ X2 R) as W'. pose proof (padded_inj _ _ _ X1 P) as Ij. destruct R as (R1 & R2 & _), P as (P1 & P2 & (P3 & _) & _).
    repeat split; try congruence; auto; apply W'.
Qed.
Lemma fallback_spec nd a k (c1 c2 c1' c2' : circ) : wf c1 -> wf c2 -> prepare actsOn nd c1 c2 = PVal (c1', c2') ->
  let '(a', k') := fallback actsOn a k c1' c2' in
  (a' = true <-> a = true /\ handled actsOn c1' c2') /\ (k' = true <-> k = true \/ (a = true /\ ~ handled actsOn c1' c2')).
Proof.
  intros W1 W2 E. destruct (prepare_flags nd c1 c2 c1' c2' W1 W2 E) as (_ & _ & En & M1 & M2 & I1 & I2 & W).
  pose proof (canHandle_iff c1' c2' W En M1 M2 I1 I2) as H. unfold fallback. destruct (canHandle actsOn c1' c2') eqn:C.
  - rewrite andb_false_r. assert (handled actsOn c1' c2') by tauto. tauto.
  - assert (~ handled actsOn c1' c2') by (intros X; apply H in X; congruence). destruct a; cbn [andb negb]; [|intuition discriminate]. intuition.
Qed.
End Prep3.

Section Passes.
Context {C : Type} (apply : pass -> C -> C) (isEmpty isDynamic varfree : C -> bool).
Lemma apply_all_app ps qs c : apply_all apply (ps ++ qs) c = apply_all apply qs (apply_all apply ps c).
Proof. apply fold_left_app. Qed.
Lemma run_passes o c1 c2 :
  runOptimizationPasses apply isEmpty isDynamic o c1 c2 =
    if isEmpty c1 && isEmpty c2 then PVal (c1, c2)
    else if (isDynamic c1 || isDynamic c2) && negb (transformDynamicCircuit o) then PThrow
    else PVal (apply_all apply (schedule o (isDynamic c1)) c1, apply_all apply (schedule o (isDynamic c2)) c2).
Proof.
  unfold runOptimizationPasses, schedule. destruct (isEmpty c1 && isEmpty c2); auto. rewrite !apply_all_app.
  set (e1 := apply_all apply (dynamic_passes (isDynamic c1)) c1). set (e2 := apply_all apply (dynamic_passes (isDynamic c2)) c2).
  assert (E1 : e1 = if isDynamic c1 then apply DeferMeasurements (apply EliminateResets c1) else c1) by (unfold e1; now destruct (isDynamic c1)).
  assert (E2 : e2 = if isDynamic c2 then apply DeferMeasurements (apply EliminateResets c2) else c2) by (unfold e2; now destruct (isDynamic c2)).
  rewrite <- E1, <- E2. clearbody e1 e2.
  assert (G : forall d1 d2, (let both (b : bool) (p : pass) (cs : C * C) := if b then (apply p (fst cs), apply p (snd cs)) else cs in
         let cs := both (reconstructSWAPs o) SwapReconstruction (d1, d2) in
         let cs := both (backpropagateOutputPermutation o) BackpropagateOutputPermutation cs in
         let cs := both (elidePermutations o) ElidePermutations cs in
         let cs := both (fuseSingleQubitGates o) SingleQubitGateFusion cs in
         let cs := both (removeDiagonalGatesBeforeMeasure o) RemoveDiagonalGatesBeforeMeasure cs in
         let cs := both (reorderOperations o) ReorderOperations cs in
         (both true RemoveFinalMeasurements cs)) = (apply_all apply [RemoveFinalMeasurements] (apply_all apply (filter (configured o) documented_order) d1), apply_all apply [RemoveFinalMeasurements] (apply_all apply (filter (configured o) documented_order) d2))).
  { intros d1 d2. destruct o as [f s d t r b e]. unfold documented_order. cbn. destruct f, s, d, r, b, e; reflexivity. }
  cbn zeta in *. destruct (isDynamic c1) eqn:D1, (isDynamic c2) eqn:D2; cbn [orb andb]; try (destruct (transformDynamicCircuit o)); cbn [negb pbind]; auto; try (rewrite E1, E2); now rewrite G.
Qed.
Definition flag (o : optimizations) (r : request) : bool := configured o (requested r).
(* the requests that take effect *)
Fixpoint effective (o : optimizations) (rs : list request) : list pass :=
  match rs with [] => [] | r :: rs' => if flag o r then effective o rs' else requested r :: effective (snd (doRequest (fun _ c => c) (tt, tt, o) r)) rs' end.
Lemma request_flags o r r' : flag (snd (doRequest (fun _ c => c) (tt, tt, o) r)) r' = flag o r' || match r, r' with RFuse, RFuse | RSwaps, RSwaps | RReorder, RReorder | RBackpropagate, RBackpropagate | RElide, RElide => true | _, _ => false end.
Proof. destruct o as [f s d t re b e]. destruct r, r', f, s, re, b, e; reflexivity. Qed.
Lemma request_eff (c1 c2 : C) o r : doRequest apply (c1, c2, o) r =
  if flag o r then (c1, c2, o) else (apply (requested r) c1, apply (requested r) c2, snd (doRequest (fun _ c => c) (tt, tt, o) r)).
Proof. destruct o as [f s d t re b e]. destruct r; cbn; [destruct f|destruct s|destruct re|destruct b|destruct e]; reflexivity. Qed.
Lemma requests_eff rs : forall c1 c2 o, exists o', fold_left (doRequest apply) rs (c1, c2, o) = (apply_all apply (effective o rs) c1, apply_all apply (effective o rs) c2, o').
Proof.
  induction rs as [|r rs IH]; intros c1 c2 o; cbn [fold_left effective]; [now exists o|]. rewrite request_eff. destruct (flag o r); [auto|]. cbn [apply_all fold_left]. apply IH.
Qed.
Lemma requested_inj r r' : requested r = requested r' -> r = r'.
Proof. destruct r, r'; cbn; congruence. Qed.
Lemma effective_iff rs : forall o p, In p (effective o rs) <-> exists r, In r rs /\ p = requested r /\ configured o p = false.
Proof.
  induction rs as [|r rs IH]; intros o p; cbn [effective]; [split; [intros []|intros (r & [] & _)]|].
  destruct (flag o r) eqn:Fl.
  - rewrite IH. split; intros (r' & I & -> & H).
    + exists r'; repeat split; auto. now right.
    + destruct I as [<-|I]; [unfold flag in Fl; congruence|eauto].
  - cbn [In]. rewrite IH. split.
    + intros [<-|(r' & I & -> & H)]; [exists r; repeat split; auto; now left|]. exists r'. repeat split; [now right|].
      change (flag (snd (doRequest (fun _ c => c) (tt, tt, o) r)) r' = false) in H. rewrite request_flags in H. apply orb_false_iff in H as [H _]. exact H.
    + intros (r' & [<-|I] & -> & H); [now left|]. destruct (flag (snd (doRequest (fun _ c => c) (tt, tt, o) r)) r') eqn:X.
      * rewrite request_flags in X. change (flag o r' = false) in H. rewrite H in X. left. destruct r, r'; cbn in X; try discriminate; reflexivity.
      * right. exists r'. repeat split; auto.
Qed.
Lemma effective_nodup rs : forall o, NoDup (effective o rs).
Proof.
  induction rs as [|r rs IH]; intros o; cbn [effective]; [constructor|]. destruct (flag o r) eqn:Fl; auto. constructor; auto.
  intros X. apply effective_iff in X as (r' & _ & E & H). change (flag (snd (doRequest (fun _ c => c) (tt, tt, o) r)) r = false) in H.
  rewrite request_flags in H. apply orb_false_iff in H as [_ H]. now destruct r.
Qed.
Lemma requests_main rs c1 c2 o : exists ps o', fold_left (doRequest apply) rs (c1, c2, o) = (apply_all apply ps c1, apply_all apply ps c2, o') /\
  NoDup ps /\ (forall p, In p ps <-> configured o p = false /\ exists r, In r rs /\ requested r = p).
Proof.
  destruct (requests_eff rs c1 c2 o) as (o' & E). exists (effective o rs), o'. split; [auto|]. split; [apply effective_nodup|].
  intros p. rewrite effective_iff. split; [intros (r & I & -> & H)|intros (H & r & I & <-)]; eauto.
Qed.
End Passes.

Lemma primary_data {A} (c : circ A) : data_qubits c (primary c).
Proof.
  exists (filter (fun q => negb (q_anc c q)) (seq 0 (q_n c))). split; [apply NoDup_filter, seq_NoDup|]. split; [reflexivity|].
  intros q. rewrite filter_In, in_seq, negb_true_iff. intuition lia.
Qed.

Section Whole.
Context {A : Type} (actsOn : A -> nat -> bool) (apply : pass -> circ A -> circ A) (isEmpty isDynamic varfree : circ A -> bool).
Notation wf := (@wf_circ A).
Lemma construct_main nd cfg (c1 c2 : circ A) : 
  (forall p c, wf c -> wf (apply p c)) -> wf c1 -> wf c2 ->
  match construct actsOn apply isEmpty isDynamic varfree nd cfg c1 c2 with
  | PVal (c1', c2', s) => exists o1 o2, optimise apply isEmpty isDynamic varfree (opts cfg) c1 c2 = PVal (o1, o2) /\ wf o1 /\ wf o2 /\ prepare actsOn nd o1 o2 = PVal (c1', c2') /\
      (s_alt s, s_con s) = fallback actsOn (runAlternatingChecker (exec cfg)) (runConstructionChecker (exec cfg)) c1' c2' /\
      exists k, data_qubits c1' k /\
        (runSimulationChecker (exec cfg) = true /\ stateTyp (sim cfg) = ComputationalBasis -> k < 64 /\ s_maxSims s = N.min (maxSims (sim cfg)) (2 ^ N.of_nat k)) /\
        (~ (runSimulationChecker (exec cfg) = true /\ stateTyp (sim cfg) = ComputationalBasis) -> s_maxSims s = maxSims (sim cfg))
  | PThrow => optimise apply isEmpty isDynamic varfree (opts cfg) c1 c2 = PThrow
  | PAbort => False
  | PUndefined => exists o1 o2 c1' c2', optimise apply isEmpty isDynamic varfree (opts cfg) c1 c2 = PVal (o1, o2) /\ prepare actsOn nd o1 o2 = PVal (c1', c2') /\
      runSimulationChecker (exec cfg) = true /\ stateTyp (sim cfg) = ComputationalBasis /\ exists k, data_qubits c1' k /\ 64 <= k
  end.
Proof.
  intros HA W1 W2.
  assert (Ho : match optimise apply isEmpty isDynamic varfree (opts cfg) c1 c2 with PVal (o1, o2) => wf o1 /\ wf o2 | PThrow => True | _ => False end).
  { unfold optimise. destruct (varfree c1 && varfree c2); [|auto]. rewrite run_passes. destruct (isEmpty c1 && isEmpty c2); [auto|].
    destruct ((isDynamic c1 || isDynamic c2) && _); auto.
    assert (G : forall ps c, wf c -> wf (apply_all apply ps c)) by (intros ps; induction ps as [|p ps IH]; intros c W; [exact W|apply (IH (apply p c)), HA, W]).
    split; apply G; auto. }
  unfold construct. destruct (optimise _ _ _ _ _ _ _) as [[o1 o2]| | |] eqn:E; cbn [pbind fst snd]; try tauto. destruct Ho as [X1 X2].
  destruct (prepare_main actsOn nd o1 o2 X1 X2) as (s1 & s2 & f & c1' & c2' & EP & _). rewrite EP. cbn [pbind fst snd].
  destruct (fallback actsOn _ _ c1' c2') as [a k] eqn:F. destruct (clamp_sims _ _ _ _) as [n|] eqn:Cl.
  - exists o1, o2. cbn [s_alt s_con s_maxSims]. repeat (split; [auto; fail|]). exists (primary c1'). split; [apply primary_data|]. unfold clamp_sims in Cl.
    destruct (runSimulationChecker (exec cfg)); [|injection Cl as <-; intuition discriminate]. destruct (stateTyp (sim cfg)); try (injection Cl as <-; intuition discriminate).
    destruct (N.leb_spec 64 (N.of_nat (primary c1'))); [discriminate|]. split; [intros _|intuition]. split; [lia|].
    rewrite (proj2 (N.leb_le _ 63)), N.shiftl_1_l in Cl by lia. cbn [andb] in Cl. injection Cl as <-.
    destruct (N.ltb_spec (2 ^ N.of_nat (primary c1')) (maxSims (sim cfg))); lia.
  - exists o1, o2, c1', c2'. unfold clamp_sims in Cl. destruct (runSimulationChecker (exec cfg)); [|discriminate]. destruct (stateTyp (sim cfg)); try discriminate.
    destruct (N.leb_spec 64 (N.of_nat (primary c1'))); [|discriminate]. repeat split; auto. exists (primary c1'). split; [apply primary_data|lia].
Qed.
End Whole.
