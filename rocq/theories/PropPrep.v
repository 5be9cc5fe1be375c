(** Preparation of the circuits by the manager's constructor: C16, C39, C40, C42. *)
From Coq Require Import List Bool Arith ZArith NArith Lia Sorting.Sorted.
From Verif Require Import Criterion Config Perm PermSpec Prep PrepSpec Passes PassesSpec PrepProofs PrepProofs2 PrepProofs3.
Import ListNotations.

(** example circuits: an operation is the list of the qubits it acts on *)
Definition on (o : list nat) (p : nat) : bool := existsb (Nat.eqb p) o.
Definition idc (ops : list (list nat)) (n : nat) : circ (list nat) :=
  mkCirc ops n (map (fun i => (i, i)) (seq 0 n)) (map (fun i => (i, i)) (seq 0 n)) (fun _ => false) (fun _ => false).
Lemma idmap_find n s k : qfind k (map (fun i => (i, i)) (seq s n)) = if (s <=? k) && (k <? s + n) then Some k else None.
Proof.
  revert s. induction n as [|n IH]; intros s; cbn [seq map qfind].
  - destruct (Nat.leb_spec s k), (Nat.ltb_spec k (s + 0)); auto; lia.
  - rewrite IH. destruct (Nat.eqb_spec s k) as [Q|N]; destruct (Nat.leb_spec s k), (Nat.leb_spec (S s) k), (Nat.ltb_spec k (S s + n)), (Nat.ltb_spec k (s + S n)); cbn [andb]; auto; try lia; now subst.
Qed.
Lemma seq_sorted n s : StronglySorted lt (seq s n).
Proof. revert s; induction n as [|n IH]; intros s; cbn; constructor; auto. apply Forall_forall. intros x X. apply in_seq in X. lia. Qed.
Lemma idc_wf ops n : wf_circ (idc ops n).
Proof.
  assert (M : is_map (map (fun i => (i, i)) (seq 0 n))) by (unfold is_map; rewrite map_map, map_id; apply seq_sorted).
  assert (F : forall k v, maps (map (fun i => (i, i)) (seq 0 n)) k v <-> k = v /\ v < n).
  { intros k v. unfold maps. rewrite idmap_find. destruct (Nat.leb_spec 0 k), (Nat.ltb_spec k (0 + n)); cbn; split; try lia; try (intros X; injection X as ->; lia);
    try discriminate; intros [-> X]; auto; lia. }
  unfold wf_circ, idc; cbn [q_lay q_out q_n].
  assert (I : injective_map (map (fun i => (i, i)) (seq 0 n))) by (intros k k' v X Y; apply F in X, Y; lia).
  repeat split; auto; unfold values in *.
  - intros (k & X). apply F in X. lia.
  - intros X. exists v. apply F. lia.
  - intros v (k & X). apply F in X. lia.
Qed.

(** C39. Stripping idle qubits always succeeds (no exception, no failed assertion, in debug and release builds), removes only qubits
    that are idle and undisturbed, leaves operations, the remaining outputs and flags alone, keeps both layouts bijections, renumbers the
    logical qubits of both circuits by the same increasing function (those the smaller circuit does not have stay such), and leaves nothing that could be removed. *)
Theorem C39_strip_idle_qubits {A} (actsOn : A -> nat -> bool) ndebug (c1 c2 : circ A) : wf_circ c1 -> wf_circ c2 ->
  exists c1' c2' f, as_larger (strip actsOn ndebug) c1 c2 = PVal (c1', c2') /\ wf_circ c1' /\ wf_circ c2' /\ increasing f /\
    shrunk actsOn f c1 c1' /\ shrunk actsOn f c2 c2' /\
    (forall q, Nat.min (q_n c1') (q_n c2') <= q -> Nat.min (q_n c1) (q_n c2) <= f q) /\
    (if q_n c2 <? q_n c1 then nothing_left actsOn c1' c2' /\ q_n c2' <= q_n c1' else nothing_left actsOn c2' c1' /\ q_n c1' <= q_n c2').
Proof. exact (strip_both actsOn ndebug c1 c2). Qed.
Print Assumptions C39_strip_idle_qubits.

(** qubit 2 is idle in both circuits, qubit 3 exists in the larger one only and is idle *)
Example C39_example : exists c1' c2', as_larger (strip on false) (idc [[0;1];[4]] 5) (idc [[0];[1]] 3) = PVal (c1', c2') /\
  q_lay c1' = [(0,0);(1,1);(4,2)] /\ q_out c1' = [(0,0);(1,1);(4,2)] /\ q_n c1' = 3 /\ q_lay c2' = [(0,0);(1,1)] /\ q_n c2' = 2.
Proof. eexists _, _. split; [vm_compute; reflexivity|]. repeat split. Qed.
(** an idle qubit whose logical qubit is read out elsewhere stays *)
Example C39_example_kept : exists c1' c2', as_larger (strip on false)
    (mkCirc [[0]] 2 [(0,0);(1,1)] [(0,1);(1,0)] (fun _ => false) (fun _ => false)) (idc [[0]] 1) = PVal (c1', c2') /\ q_n c1' = 2.
Proof. eexists _, _. split; [vm_compute; reflexivity|]. reflexivity. Qed.
Example C39_hypotheses : wf_circ (idc [[0;1];[4]] 5) /\ wf_circ (idc [[0];[1]] 3).
Proof. split; apply idc_wf. Qed.

(** C40. The setup of ancillary and garbage qubits always succeeds; the circuit with more qubits keeps operations, layout and outputs of
    non-garbage qubits; the other one gets as many qubits, the new ones ancillary and garbage, ancillary in both. *)
Theorem C40_setup {A} (c1 c2 : circ A) : wf_circ c1 -> wf_circ c2 ->
  exists c1' c2', as_larger setupAncillariesAndGarbage c1 c2 = PVal (c1', c2') /\
    (if q_n c2 <? q_n c1 then restored (q_n c2) c1 c1' /\ padded (q_n c1) c2 c2' else restored (q_n c1) c2 c2' /\ padded (q_n c2) c1 c1').
Proof. exact (setup_both c1 c2). Qed.
Print Assumptions C40_setup.

(** The larger circuit remains well-formed; the smaller one does if its physical qubits do not use the indices of the added qubits. *)
Theorem C40_larger_well_formed {A} b (c c' : circ A) : wf_circ c -> restored b c c' -> wf_circ c'.
Proof. exact (restored_wf b c c'). Qed.
Print Assumptions C40_larger_well_formed.
Theorem C40_smaller_well_formed {A} n (c c' : circ A) : wf_circ c -> q_n c <= n -> padded n c c' -> (forall j, q_n c <= j < n -> ~ keys (q_lay c) j) -> wf_circ c'.
Proof. exact (padded_wf n c c'). Qed.
Print Assumptions C40_smaller_well_formed.
(** Exactly the added logical qubits whose index is already used by a physical qubit are missing from its layout. *)
Theorem C40_missing_qubits {A} n (c c' : circ A) : wf_circ c -> q_n c <= n -> padded n c c' ->
  forall v, values (q_lay c') v <-> v < q_n c \/ (v < n /\ q_n c <= v /\ ~ keys (q_lay c) v).
Proof. exact (padded_values n c c'). Qed.
Print Assumptions C40_missing_qubits.

(** The whole preparation: it never throws or aborts, operations are untouched, both circuits end up with the same number of qubits and
    injective layouts. *)
Theorem C40_prepare {A} (actsOn : A -> nat -> bool) ndebug (c1 c2 : circ A) : wf_circ c1 -> wf_circ c2 ->
  exists c1' c2', prepare actsOn ndebug c1 c2 = PVal (c1', c2') /\ q_ops c1' = q_ops c1 /\ q_ops c2' = q_ops c2 /\ q_n c1' = q_n c2' /\
    injective_map (q_lay c1') /\ injective_map (q_lay c2') /\ (wf_circ c1' \/ wf_circ c2').
Proof.
  intros W1 W2. destruct (prepare_main actsOn ndebug c1 c2 W1 W2) as (s1 & s2 & f & c1' & c2' & E & _). exists c1', c2'.
  destruct (prepare_flags actsOn ndebug c1 c2 c1' c2' W1 W2 E) as (H1 & H2 & H3 & _ & _ & H4 & H5 & H6). auto 10.
Qed.
Print Assumptions C40_prepare.

(** The claim that both prepared circuits contain all logical qubits fails: a qubit that is idle in both circuits is removed, and the
    index of the ancillary qubit added to the smaller circuit is then taken by one of its remaining physical qubits. *)
Theorem C40_all_qubits_present_refuted :
  ~ (forall (c1 c2 c1' c2' : circ (list nat)), wf_circ c1 -> wf_circ c2 -> prepare on true c1 c2 = PVal (c1', c2') ->
       forall q, q < q_n c2' -> values (q_lay c2') q).
Proof.
  intros H. destruct (C40_prepare on true (idc [[0;2];[3]] 4) (idc [[0;2]] 3) (idc_wf _ _) (idc_wf _ _)) as (c1' & c2' & E & _).
  assert (E2 : q_n c2' = 3 /\ q_lay c2' = [(0,0);(2,1)]).
  { revert E. vm_compute. intros X. injection X as <- <-. split; reflexivity. }
  destruct E2 as [E2 E3]. destruct (H _ _ _ _ (idc_wf _ _) (idc_wf _ _) E 2) as (k & K); [lia|]. rewrite E3 in K. unfold maps in K. cbn in K.
  destruct k as [|[|[|k]]]; discriminate.
Qed.
Print Assumptions C40_all_qubits_present_refuted.
(** The claim that no logical qubit that is an output of a circuit is marked as garbage fails: an extra qubit of the larger circuit whose
    physical qubit has no output is marked, although it is read out on another physical qubit. *)
Theorem C40_outputs_not_garbage_refuted :
  ~ (forall (c1 c2 c1' c2' : circ (list nat)), wf_circ c1 -> wf_circ c2 -> (forall q, q_gar c1 q = false) -> prepare on true c1 c2 = PVal (c1', c2') ->
       forall q, values (q_out c1') q -> q_gar c1' q = false).
Proof.
  intros H. set (c1 := mkCirc [[0;1]] 2 [(0,0);(1,1)] [(0,1)] (fun _ => false) (fun _ => false) : circ (list nat)).
  assert (W : wf_circ c1).
  { assert (F : forall k v, maps [(0,0);(1,1)] k v <-> k = v /\ v < 2).
    { intros [|[|k]] v; unfold maps; cbn; split; try (intros X; injection X as <-; lia); try discriminate; intros [<- X]; auto; lia. }
    assert (G : forall k v, maps [(0,1)] k v <-> k = 0 /\ v = 1).
    { intros [|k] v; unfold maps; cbn; split; try (intros X; injection X as <-; lia); try discriminate; intros [X1 X2]; subst; auto; lia. }
    unfold wf_circ, c1; cbn [q_lay q_out q_n]. split; [repeat constructor|]. split; [intros k k' v X Y; apply F in X, Y; lia|]. split; [|split; [repeat constructor|]].
    - intros v. split; [intros (k & X); apply F in X; lia|]. intros X. exists v. apply F. lia.
    - split; [intros k k' v X Y; apply G in X, Y; lia|]. split; [intros v (k & X); apply G in X; lia|]. intros p (v & X). apply G in X as [-> ->]. exists 0. reflexivity. }
  destruct (C40_prepare on true c1 (idc [[0]] 1) W (idc_wf _ _)) as (c1' & c2' & E & _).
  assert (E2 : q_gar c1' 1 = true /\ q_out c1' = [(0,1)]).
  { revert E. unfold c1. vm_compute. intros X. injection X as <- <-. split; reflexivity. }
  destruct E2 as [E2 E3]. assert (X : q_gar c1' 1 = false).
  { eapply H; [exact W|apply (idc_wf [[0]] 1)| |exact E|]; [reflexivity|]. exists 0. rewrite E3. reflexivity. }
  congruence.
Qed.
Print Assumptions C40_outputs_not_garbage_refuted.
Example C40_example : exists c1' c2', prepare on true (idc [[0;1];[3]] 4) (idc [[0;1]] 3) = PVal (c1', c2') /\
  q_lay c1' = [(0,0);(1,1);(3,2)] /\ q_lay c2' = [(0,0);(1,1);(2,2)] /\ q_out c1' = [(0,0);(1,1);(3,2)] /\ q_out c2' = [(0,0);(1,1)] /\
  q_anc c1' 2 = true /\ q_anc c2' 2 = true /\ q_gar c1' 2 = false /\ q_gar c2' 2 = true /\ q_anc c1' 1 = false.
Proof. eexists _, _. split; [vm_compute; reflexivity|]. repeat split. Qed.

(** C16. After construction the alternating checker is enabled iff it was configured and no ancillary qubit of both circuits is acted on in
    both; the construction checker is enabled iff it was configured or takes over. *)
Theorem C16_fallback {A} (actsOn : A -> nat -> bool) ndebug alt con (c1 c2 c1' c2' : circ A) :
  wf_circ c1 -> wf_circ c2 -> prepare actsOn ndebug c1 c2 = PVal (c1', c2') ->
  let '(alt', con') := fallback actsOn alt con c1' c2' in
  (alt' = true <-> alt = true /\ handled actsOn c1' c2') /\ (con' = true <-> con = true \/ (alt = true /\ ~ handled actsOn c1' c2')).
Proof. exact (fallback_spec actsOn ndebug alt con c1 c2 c1' c2'). Qed.
Print Assumptions C16_fallback.
(** An exact checker survives the constructor. *)
Theorem C16_exact_checker_survives {A} (actsOn : A -> nat -> bool) apply isEmpty isDynamic varfree ndebug cfg (c1 c2 c1' c2' : circ A) s :
  construct actsOn apply isEmpty isDynamic varfree ndebug cfg c1 c2 = PVal (c1', c2', s) ->
  runAlternatingChecker (exec cfg) = true \/ runConstructionChecker (exec cfg) = true -> s_alt s = true \/ s_con s = true.
Proof.
  unfold construct, pbind. destruct (optimise _ _ _ _ _ _ _) as [[o1 o2]| | |]; try discriminate. cbn [fst snd]. destruct (prepare _ _ _ _) as [[d1 d2]| | |]; try discriminate.
  cbn [fst snd]. unfold fallback. destruct (runAlternatingChecker (exec cfg)), (runConstructionChecker (exec cfg)), (canHandle actsOn d1 d2); cbn [andb negb];
    destruct (StateGen.clamp_sims _ _ _ _); try discriminate; intros E; injection E as _ _ <-; cbn; tauto.
Qed.
Print Assumptions C16_exact_checker_survives.
(** The constructor as a whole, for passes that keep circuits well-formed: it throws only if the optimisation does, never aborts, its only
    undefined behaviour is the shift for 64 or more primary qubits, and it otherwise holds the prepared optimised circuits. *)
Theorem C16_constructor {A} (actsOn : A -> nat -> bool) apply isEmpty isDynamic varfree ndebug cfg (c1 c2 : circ A) :
  (forall p c, wf_circ c -> wf_circ (apply p c)) -> wf_circ c1 -> wf_circ c2 ->
  match construct actsOn apply isEmpty isDynamic varfree ndebug cfg c1 c2 with
  | PVal (c1', c2', s) => exists o1 o2, optimise apply isEmpty isDynamic varfree (opts cfg) c1 c2 = PVal (o1, o2) /\ wf_circ o1 /\ wf_circ o2 /\ prepare actsOn ndebug o1 o2 = PVal (c1', c2') /\
      (s_alt s, s_con s) = fallback actsOn (runAlternatingChecker (exec cfg)) (runConstructionChecker (exec cfg)) c1' c2' /\
      exists k, data_qubits c1' k /\
        (runSimulationChecker (exec cfg) = true /\ stateTyp (sim cfg) = ComputationalBasis -> k < 64 /\ s_maxSims s = N.min (maxSims (sim cfg)) (2 ^ N.of_nat k)) /\
        (~ (runSimulationChecker (exec cfg) = true /\ stateTyp (sim cfg) = ComputationalBasis) -> s_maxSims s = maxSims (sim cfg))
  | PThrow => optimise apply isEmpty isDynamic varfree (opts cfg) c1 c2 = PThrow
  | PAbort => False
  | PUndefined => exists o1 o2 c1' c2', optimise apply isEmpty isDynamic varfree (opts cfg) c1 c2 = PVal (o1, o2) /\ prepare actsOn ndebug o1 o2 = PVal (c1', c2') /\
      runSimulationChecker (exec cfg) = true /\ stateTyp (sim cfg) = ComputationalBasis /\ exists k, data_qubits c1' k /\ 64 <= k
  end.
Proof. exact (construct_main actsOn apply isEmpty isDynamic varfree ndebug cfg c1 c2). Qed.
Print Assumptions C16_constructor.
Definition cfg0 : config := default_config 8 (QArith_base.Qmake Z0 xH).
Definition run0 (c1 c2 : circ (list nat)) := construct on (fun _ c => c) (fun c => match q_ops c with [] => true | _ => false end) (fun _ => false) (fun _ => true) true cfg0 c1 c2.
(** an ancillary qubit used in the larger circuit only: the alternating checker stays; if the circuits share an ancillary qubit that both use,
    the construction checker takes over *)
Example C16_example_stays : match run0 (idc [[0;1];[2]] 3) (idc [[0;1]] 2) with PVal (_, _, s) => s = mkSettings true false 4 | _ => False end.
Proof. vm_compute. reflexivity. Qed.
Example C16_example_falls_back :
  let anc c := mkCirc (q_ops c) (q_n c) (q_lay c) (q_out c) (fun q => q =? 1) (q_gar c) in
  match run0 (anc (idc [[0;1]] 2)) (anc (idc [[0];[1]] 2)) with PVal (_, _, s) => s = mkSettings false true 2 | _ => False end.
Proof. vm_compute. reflexivity. Qed.

(** C42. The optimisation passes: nothing happens to symbolic circuits or if both circuits are empty; dynamic circuits are rejected iff their transformation
    is disabled; otherwise each circuit goes through its schedule. *)
Theorem C42_optimisation {C} (apply : pass -> C -> C) isEmpty isDynamic varfree o c1 c2 :
  optimise apply isEmpty isDynamic varfree o c1 c2 =
    if negb (varfree c1 && varfree c2) || (isEmpty c1 && isEmpty c2) then PVal (c1, c2)
    else if (isDynamic c1 || isDynamic c2) && negb (transformDynamicCircuit o) then PThrow
    else PVal (apply_all apply (schedule o (isDynamic c1)) c1, apply_all apply (schedule o (isDynamic c2)) c2).
Proof. unfold optimise. rewrite run_passes. destruct (varfree c1 && varfree c2); reflexivity. Qed.
Print Assumptions C42_optimisation.
(** In a schedule no pass occurs twice, the final measurements go last, and an optional pass occurs iff configured. *)
Theorem C42_schedule o d : NoDup (schedule o d) /\ (exists ps, schedule o d = ps ++ [RemoveFinalMeasurements]) /\
  forall p, In p (schedule o d) <-> configured o p = true \/ p = RemoveFinalMeasurements \/ (d = true /\ (p = EliminateResets \/ p = DeferMeasurements)).
Proof.
  split; [|split].
  - destruct o as [f s di t r b e], d, f, s, di, r, b, e; cbn; repeat (constructor; [cbn; intuition congruence|]); constructor.
  - unfold schedule. exists (dynamic_passes d ++ filter (configured o) documented_order). apply app_assoc.
  - intros p. unfold schedule. rewrite !in_app_iff, filter_In.
    assert (X : In p documented_order <-> p <> EliminateResets /\ p <> DeferMeasurements /\ p <> RemoveFinalMeasurements) by (destruct p; cbn; intuition congruence).
    assert (Y : configured o p = true -> In p documented_order) by (destruct p; cbn; intuition congruence).
    destruct d; cbn [dynamic_passes In]; intuition congruence.
Qed.
Print Assumptions C42_schedule.
(** Whatever passes are requested after construction, each is applied to both circuits at most once, iff requested and not configured. *)
Theorem C42_requests {C} (apply : pass -> C -> C) rs c1 c2 o : exists ps o',
  fold_left (doRequest apply) rs (c1, c2, o) = (apply_all apply ps c1, apply_all apply ps c2, o') /\
  NoDup ps /\ (forall p, In p ps <-> configured o p = false /\ exists r, In r rs /\ requested r = p).
Proof. exact (requests_main apply rs c1 c2 o). Qed.
Print Assumptions C42_requests.
(** The claim that a requested pass has been applied, at construction or on request, fails for symbolic circuits: the flag is set in the default
    configuration although the passes were skipped. *)
Theorem C42_request_applied_refuted :
  ~ (forall (o : optimizations) (varfree : bool) (r : request) (log1 log2 : list pass),
       let apply p c := c ++ [p] in
       optimise apply (fun _ => false) (fun _ => false) (fun _ => varfree) o [] [] = PVal (log1, log2) ->
       In (requested r) (fst (fst (doRequest apply (log1, log2, o) r)))).
Proof. intros H. specialize (H (opts (default_config 8 (QArith_base.Qmake Z0 xH))) false RFuse [] [] eq_refl). exact H. Qed.
Print Assumptions C42_request_applied_refuted.
(** It holds for variable-free circuits. *)
Theorem C42_request_applied (o : optimizations) (r : request) (log1 log2 : list pass) :
  let apply p c := c ++ [p] in
  optimise apply (fun _ => false) (fun _ => false) (fun _ => true) o [] [] = PVal (log1, log2) ->
  In (requested r) (fst (fst (doRequest apply (log1, log2, o) r))) /\ count_occ (fun a b : pass => ltac:(decide equality) : {a = b} + {a <> b}) (fst (fst (doRequest apply (log1, log2, o) r))) (requested r) = 1.
Proof.
  intros apply. rewrite C42_optimisation. cbn [negb andb orb]. intros E. injection E as <- <-. unfold apply.
  destruct o as [f s d t re b e]. destruct r, f, s, d, re, b, e; cbn; (split; [tauto|reflexivity]).
Qed.
Print Assumptions C42_request_applied.
Example C42_example : optimise (fun p c => c ++ [p]) (fun _ => false) (fun _ => true) (fun _ => true)
    (mkOptimizations true true false true true false true) [] [] =
  PVal ([EliminateResets; DeferMeasurements; SwapReconstruction; ElidePermutations; SingleQubitGateFusion; ReorderOperations; RemoveFinalMeasurements],
        [EliminateResets; DeferMeasurements; SwapReconstruction; ElidePermutations; SingleQubitGateFusion; ReorderOperations; RemoveFinalMeasurements]).
Proof. vm_compute. reflexivity. Qed.
