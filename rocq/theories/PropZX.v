(** C43, C44, C56: permutation helpers, verdict and simplification strategy of the ZX checker. *)
From Coq Require Import List Bool Arith Lia Sorting.Sorted.
From Verif Require Import Criterion Perm PermSpec PermProofs ZX ZXSpec ZXProofs ZXProofs2.
Import ListNotations.

(** * C43 *)
(** inverting an injective permutation exchanges keys and values; twice gives the permutation back *)
Theorem C43_invert_spec : forall p, is_map p -> injective_map p ->
  is_map (invert p) /\ injective_map (invert p) /\ (forall v w, maps (invert p) w v <-> maps p v w) /\ invert (invert p) = p.
Proof.
  intros p M I. split; [apply invert_is_map|]. split; [now apply invert_injective|]. split; [now apply invert_maps|now apply invert_involutive].
Qed.
(** concat p1 p2 follows p1, then p2 *)
Theorem C43_concat_composes : forall p1 p2, is_map p1 ->
  is_map (concat p1 p2) /\ forall k v, maps (concat p1 p2) k v <-> exists w, maps p1 k w /\ maps p2 w v.
Proof.
  intros p1 p2 M. split; [apply concat_is_map|]. intros k v. unfold maps at 1. rewrite concat_find by auto. split.
  - destruct (qfind k p1) as [w|] eqn:E; [|discriminate]. intros H. exists w. split; auto.
  - intros (w & A & B). unfold maps in *. now rewrite A.
Qed.
(** complete keeps the given entries and reaches every logical qubit below n exactly once; new keys are below n *)
Theorem C43_complete_extends : forall p n, partial_perm p n -> exists q, complete p n = Some q /\ is_map q /\ injective_map q /\ extends p q /\
  (forall v, values q v <-> v < n) /\ length q = n /\ (forall k v, maps q k v -> maps p k v \/ k < n).
Proof. exact complete_spec. Qed.
Theorem C43_complete_bijection : forall p n, partial_perm p n -> (forall k, keys p k -> k < n) ->
  exists q, complete p n = Some q /\ bijection_below q n /\ extends p q.
Proof. exact complete_bijection. Qed.
(** the combined permutation maps the output of a physical qubit to its initial logical qubit; it is total exactly if every physical
    qubit that the completed output permutation uses occurs in the completed layout *)
Theorem C43_combined_spec : forall out lay n, partial_perm out n -> partial_perm lay n ->
  exists o l r, complete out n = Some o /\ complete lay n = Some l /\ invertPermutations out lay n = Some r /\ is_map r /\
    (forall q w, maps r q w <-> exists i, maps o i q /\ maps l i w) /\
    ((forall q, q < n -> keys r q) <-> forall i, keys o i -> keys l i).
Proof. exact combined_spec. Qed.
Theorem C43_combined_total : forall out lay n, partial_perm out n -> partial_perm lay n -> (forall k, keys lay k <-> k < n) -> (forall k, keys out k -> keys lay k) ->
  exists r, invertPermutations out lay n = Some r /\ bijection_below r n /\ (forall i q w, maps out i q -> maps lay i w -> maps r q w).
Proof. exact combined_total. Qed.
(** the constructor's look-ups of ancillaries succeed exactly if both combined permutations know all of them *)
Theorem C43_constructor_lookups : forall p1 p2 w n, ctor_lookups_ok p1 p2 w n = true <-> forall a, w <= a < n -> keys p1 a /\ keys p2 a.
Proof. exact ctor_ok_iff. Qed.
(** ... which fails for physical indices with gaps: physical qubits 0 and 2, the second one without an output, logical qubit 1 ancillary *)
Theorem C43_gaps_terminate_refuted : ~ forall out lay n w, partial_perm out n -> partial_perm lay n -> length lay = n -> (forall k, keys out k -> keys lay k) -> w <= n ->
  exists r, invertPermutations out lay n = Some r /\ ctor_lookups_ok r r w n = true.
Proof.
  intros H. destruct (H [(0, 0)] [(0, 0); (2, 1)] 2 1) as (r & E & K).
  - split; [repeat constructor|]. split.
    + intros k k' v. unfold maps. cbn. destruct k, k'; cbn; congruence.
    + intros v [k A]. unfold maps in A. cbn in A. destruct k; cbn in A; [injection A as <-; lia|discriminate].
  - split; [repeat constructor|]. split.
    + intros k k' v. unfold maps. cbn. destruct k as [|[|[|]]], k' as [|[|[|]]]; cbn; congruence.
    + intros v [k A]. unfold maps in A. cbn in A. destruct k as [|[|[|]]]; cbn in A; try discriminate; injection A as <-; lia.
  - reflexivity.
  - intros k [v A]. unfold maps in A. cbn in A. destruct k; cbn in A; [now exists 0|discriminate].
  - lia.
  - vm_compute in E. injection E as <-. vm_compute in K. discriminate.
Qed.
Example C43_hypotheses_met : partial_perm [(0, 2); (3, 0)] 4 /\ complete [(0, 2); (3, 0)] 4 = Some [(0, 2); (1, 1); (2, 3); (3, 0)] /\
  invertPermutations [(0, 2); (3, 0)] [(0, 1); (1, 0); (2, 3); (3, 2)] 4 = Some [(0, 2); (1, 0); (2, 1); (3, 3)].
Proof.
  split; [|split; vm_compute; reflexivity]. split; [repeat constructor|]. split.
  - intros k k' v. unfold maps. cbn. destruct k as [|[|[|[|]]]], k' as [|[|[|[|]]]]; cbn; congruence.
  - intros v [k A]. unfold maps in A. cbn in A. destruct k as [|[|[|[|]]]]; cbn in A; try discriminate; injection A as <-; lia.
Qed.

(** * C44 *)
(** a ZX verdict is one of four; 'not equivalent' is none of them *)
Theorem C44_never_refutes : forall nd anc done g1 g2 out1 lay1 n1 out2 lay2 n2 M c,
  zx_run nd anc done g1 g2 out1 lay1 n1 out2 lay2 n2 M = ZVerdict c ->
  c = Equivalent \/ c = EquivalentUpToGlobalPhase \/ c = ProbablyNotEquivalent \/ c = NoInformation.
Proof. exact run_vals. Qed.
(** an equivalence is reported exactly if the check was not cancelled and the reduced miter consists of plain wires between ends that
    stand for the same logical qubit, wires whose index is garbage in both circuits excepted; the global phase decides which *)
Theorem C44_equivalence_iff : forall nd anc done g1 g2 out1 lay1 n1 out2 lay2 n2 M r1 r2 c,
  invertPermutations out1 lay1 n1 = Some r1 -> invertPermutations out2 lay2 n2 = Some r2 -> c = Equivalent \/ c = EquivalentUpToGlobalPhase ->
  (zx_run nd anc done g1 g2 out1 lay1 n1 out2 lay2 n2 M = ZVerdict c <->
   done = false /\ all_plain g1 g2 (invert r1) (invert r2) M /\ c = (if z_phase0 M then Equivalent else EquivalentUpToGlobalPhase)).
Proof. exact run_positive. Qed.
(** if all look-ups succeed there is a verdict, and a failed reduction means 'probably not equivalent', with ancillaries or after
    cancellation 'no information' *)
Theorem C44_otherwise : forall nd nanc1 nanc2 done g1 g2 out1 lay1 n1 out2 lay2 n2 M r1 r2,
  invertPermutations out1 lay1 n1 = Some r1 -> invertPermutations out2 lay2 n2 = Some r2 -> lookups_ok (invert r1) (invert r2) M ->
  let answer := zx_run nd (ancilla_flag nanc1 nanc2) done g1 g2 out1 lay1 n1 out2 lay2 n2 M in
  (exists c, answer = ZVerdict c) /\
  (answer = ZVerdict ProbablyNotEquivalent <-> done = false /\ (nanc1 = 0 /\ nanc2 = 0) /\ ~ all_plain g1 g2 (invert r1) (invert r2) M) /\
  (answer = ZVerdict NoInformation <-> done = true \/ ((nanc1 <> 0 \/ nanc2 <> 0) /\ ~ all_plain g1 g2 (invert r1) (invert r2) M)).
Proof.
  intros nd a1 a2 done g1 g2 out1 lay1 n1 out2 lay2 n2 M r1 r2 E1 E2 L answer.
  destruct (run_negative nd (ancilla_flag a1 a2) done g1 g2 _ _ _ _ _ _ M r1 r2 E1 E2 L) as (A & B & D). fold answer in A, B, D.
  assert (F : ancilla_flag a1 a2 = true <-> a1 <> 0 \/ a2 <> 0).
  { unfold ancilla_flag. rewrite orb_true_iff, !negb_true_iff, !Nat.eqb_neq. reflexivity. }
  assert (G : ancilla_flag a1 a2 = false <-> a1 = 0 /\ a2 = 0).
  { unfold ancilla_flag. rewrite orb_false_iff, !negb_false_iff, !Nat.eqb_eq. reflexivity. }
  rewrite B, D, F, G. split; [exact A|split; reflexivity].
Qed.
Definition demo_miter (t : etype) : miter := mkMiter 2 2 (fun i => match i with 0 => (t, Some 0, Some 1) | _ => (ESimple, Some 1, Some 0) end) false.
Example C44_hypotheses_met :
  lookups_ok [(0, 0); (1, 1)] [(0, 1); (1, 0)] (demo_miter EHadamard) /\
  zx_run false false false (fun _ => false) (fun _ => false) [(0, 0); (1, 1)] [(0, 0); (1, 1)] 2 [(0, 1); (1, 0)] [(0, 0); (1, 1)] 2 (demo_miter ESimple)
    = ZVerdict EquivalentUpToGlobalPhase /\
  zx_run false false false (fun _ => false) (fun _ => false) [(0, 0); (1, 1)] [(0, 0); (1, 1)] 2 [(0, 1); (1, 0)] [(0, 0); (1, 1)] 2 (demo_miter EHadamard)
    = ZVerdict ProbablyNotEquivalent /\
  zx_run false false true (fun _ => false) (fun _ => false) [(0, 0); (1, 1)] [(0, 0); (1, 1)] 2 [(0, 1); (1, 0)] [(0, 0); (1, 1)] 2 (demo_miter ESimple)
    = ZVerdict NoInformation /\
  zx_run false false false (fun _ => false) (fun _ => false) [(0, 0); (1, 1)] [(0, 0); (1, 1)] 2 [(0, 0); (1, 1)] [(0, 0); (1, 1)] 2 (demo_miter ESimple)
    = ZVerdict ProbablyNotEquivalent.
Proof.
  split; [|vm_compute; auto]. intros i L. destruct i as [|[|i]]; cbn in *; [| |lia].
  - exists EHadamard, 0, 1. split; [reflexivity|]. split; [exists 0|exists 0]; reflexivity.
  - exists ESimple, 1, 0. split; [reflexivity|]. split; [exists 1|exists 1]; reflexivity.
Qed.

(** * C56 *)
(** whatever the done flag does, the reduction only applies rules whose check succeeded, and the three global passes *)
Theorem C56_only_checked_rules : forall (D : Type) done (R : rules D) fuel d k b d' k',
  fullReduceApproximate D done R fuel d k = Some (b, d', k') -> rsteps R d d'.
Proof. intros D done R fuel. exact (approx_sound done R fuel). Qed.
(** hence it preserves whatever all rules preserve, e.g. the meaning of the diagram up to a non-zero factor *)
Theorem C56_preserves : forall (D : Type) done (R : rules D) fuel d k b d' k' (P : D -> D -> Prop),
  (forall d, P d d) -> (forall d1 d2 d3, P d1 d2 -> P d2 d3 -> P d1 d3) -> (forall d1 d2, rstep R d1 d2 -> P d1 d2) ->
  fullReduceApproximate D done R fuel d k = Some (b, d', k') -> P d d'.
Proof.
  intros D done R fuel d k b d' k' P Rf Tr St E. apply C56_only_checked_rules in E. clear k b k'.
  induction E; eauto.
Qed.
(** never cancelled: no rule of any family applies any more when the disconnected spiders are removed *)
Theorem C56_exhaustive : forall (D : Type) done (R : rules D) fuel d k b d' k', (forall j, done j = false) ->
  fullReduceApproximate D done R fuel d k = Some (b, d', k') ->
  exists d2, d' = r_removeDisconnected D R d2 /\ forall F, In F (families R) -> exhausted d2 F.
Proof. intros D done R fuel. exact (approx_exhaustive done R fuel). Qed.
(** cancelled: whatever is started when the flag is set returns at once and changes nothing *)
Theorem C56_cancelled : forall (D : Type) done (R : rules D) fuel d k, (forall j, done j = true -> done (S j) = true) -> 0 < fuel -> done k = true ->
  exists k1 k2 k3 k4, fullReduceApproximate D done R fuel d k = Some (false, d, k1) /\ fullReduce D done R fuel d k = Some (false, d, k2) /\
    cliffordSimp D done R fuel d k = Some (false, d, k3) /\ interiorCliffordSimp D done R fuel d k = Some (false, d, k4) /\
    forall F, exists k5, simplify D done fuel F d k = Some (false, d, k5).
Proof.
  intros D done R fuel d k M L H. destruct (approx_idle done R fuel M L d k H) as (k1 & _ & E1). destruct (full_idle done R fuel M L d k H) as (k2 & _ & E2).
  destruct (clifford_idle done R fuel L d k H) as (k3 & _ & E3). destruct (interior_idle done R fuel M L d k H) as (k4 & _ & E4).
  exists k1, k2, k3, k4. repeat split; auto. intros F. destruct (simplify_idle done fuel L F d k H) as (k5 & _ & E5). now exists k5.
Qed.
(** ... and an iteration over the candidates that is under way when the flag is set applies no further rule (for the families whose
    iteration reads the flag; fusing gadgets finishes its iteration) *)
Theorem C56_cancelled_midway : forall (D : Type) done (F : family D) fuel it more d k b d' k', (forall j, done j = true -> done (S j) = true) ->
  f_polls D F = true -> done k = true -> forLoop D done F fuel it more d k = Some (b, d', k') -> b = more /\ d' = d.
Proof. intros D done F fuel it more d k b d' k' M P H E. exact (forLoop_idle done F fuel M P it more d k b d' k' H E). Qed.
(** the strategy terminates if rewriting does *)
Theorem C56_terminates : forall (D : Type) done (R : rules D) mu B d0, rewriting_terminates R mu B d0 ->
  exists fuel b d' k', fullReduceApproximate D done R fuel d0 0 = Some (b, d', k').
Proof. intros D done R mu B d0 T. exists (B + mu d0 + 2). apply (approx_good done R mu d0 B (B + mu d0 + 2) T). lia. Qed.

(** a toy instance: numbers, the only rule decreases them *)
Definition toy (on : bool) : family nat :=
  mkFamily nat unit (fun d it => match it with None => if 0 <? d then Some tt else None | Some _ => None end) (fun d _ => on && (0 <? d)) (fun d _ => pred d) true.
Definition toy_rules : rules nat := mkRules nat (toy true) (toy false) (toy false) (toy false) (toy false) (toy false) (toy false) (fun d => d) (fun d => d) (fun d => d).
Example C56_hypotheses_met :
  rewriting_terminates toy_rules (fun d => d) 2 3 /\
  (exists b k', fullReduceApproximate nat (fun _ => false) toy_rules 9 3 0 = Some (b, 0, k')) /\
  (exists b k', fullReduceApproximate nat (fun k => 3 <=? k) toy_rules 9 3 0 = Some (b, 3, k')).
Proof.
  split; [|split; vm_compute; eauto]. split; [|split; [|repeat split; intros; cbn; lia]].
  - intros d d' (F & i & I & Ck & ->). destruct I as [<-|[<-|[<-|[<-|[<-|[<-|[<-|[]]]]]]]]; cbn in *; try discriminate; destruct d; cbn in *; [discriminate|lia].
  - intros F I. assert (X : exists on, F = toy on). { destruct I as [<-|[<-|[<-|[<-|[<-|[<-|[<-|[]]]]]]]]; eexists; reflexivity. } destruct X as [on ->].
    exists (fun _ it => match it with None => 1 | Some _ => 0 end). split; [|split; cbn; [lia|intros d []; lia]].
    intros d [[]|] j; cbn; [discriminate|]. intros; lia.
Qed.

Print Assumptions C43_invert_spec.
Print Assumptions C43_concat_composes.
Print Assumptions C43_complete_extends.
Print Assumptions C43_complete_bijection.
Print Assumptions C43_combined_spec.
Print Assumptions C43_combined_total.
Print Assumptions C43_constructor_lookups.
Print Assumptions C43_gaps_terminate_refuted.
Print Assumptions C44_never_refutes.
Print Assumptions C44_equivalence_iff.
Print Assumptions C44_otherwise.
Print Assumptions C56_only_checked_rules.
Print Assumptions C56_preserves.
Print Assumptions C56_exhaustive.
Print Assumptions C56_cancelled.
Print Assumptions C56_cancelled_midway.
Print Assumptions C56_terminates.
