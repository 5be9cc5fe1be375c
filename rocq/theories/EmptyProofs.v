(** Lemmas for C87. *)
From Coq Require Import BinNums NArith List Arith Lia.
From mathcomp Require Import all_ssreflect all_fingroup all_algebra.
From Verif Require Import Criterion Config SeqFlow SeqSpec VerdictSpec Perm PermSpec Prep PrepSpec Passes PassesSpec
  Schemes DDCheck DDSpec Qubits QubitsProofs DDSem DDSemProofs DDFlow PrepSem PrepSemProofs PrepSemProofs2 PropPrep Choice Construct ConstructProofs Relation RelationProofs ConstructProofs2 SeqProofs3 StateGen DDFlow EmptySpec.
Set Implicit Arguments.
Unset Strict Implicit.
Unset Printing Implicit Defensive.
Import GRing.Theory Num.Theory.
Local Open Scope ring_scope.

Section Perms.
Variable C : numClosedFieldType.
Variable Lg : finType.
Local Notation mat := (mat C Lg).
Local Notation basis := (basis Lg).
Definition only (r : Lg) : basis := [ffun q => q == r].
Definition zeros : basis := [ffun => false].
Lemma entry_perm0 (s : {perm Lg}) (A : {set Lg}) x z :
  entry (Pm C s *m proj0 C A) x z = ((along s x == z) && [forall q in A, ~~ z q])%:R.
Proof. by rewrite entry_PmL /proj0 entry_mx; case: eqP => [->|]. Qed.
Lemma perm_agree (s1 s2 : {perm Lg}) (A : {set Lg}) w :
  Pm C s1 *m proj0 C A = w *: (Pm C s2 *m proj0 C A) <-> w = 1 /\ forall q, q \notin A -> s1 q = s2 q.
Proof.
split=> [E|[-> H]].
- have at_ x z : entry (Pm C s1 *m proj0 C A) x z = w * entry (Pm C s2 *m proj0 C A) x z by rewrite E /entry mxE.
  have w1 : w = 1.
    have := at_ zeros zeros; rewrite !entry_perm0.
    have -> : along s1 zeros = zeros by apply/ffunP => q; rewrite !ffunE.
    have -> : along s2 zeros = zeros by apply/ffunP => q; rewrite !ffunE.
    have -> : [forall q in A, ~~ zeros q] by apply/forallP => q; rewrite ffunE implybT.
    by rewrite eqxx /= mulr1 => <-.
  split=> // q qA.
  have := at_ (only (s1 q)) (only q); rewrite w1 mul1r !entry_perm0.
  have -> : along s1 (only (s1 q)) = only q by apply/ffunP => r; rewrite !ffunE (inj_eq perm_inj).
  have -> : [forall r in A, ~~ only q r].
    by apply/forallP => r; apply/implyP => rA; rewrite ffunE; apply: contraNneq qA => <-.
  rewrite eqxx /= andbT; case: eqP => [e _|_ /eqP]; last by rewrite oner_eq0.
  by have := congr1 (fun f : basis => f q) e; rewrite !ffunE eqxx => /eqP.
- rewrite scale1r; apply/matrixP => i j; rewrite -(enum_valK i) -(enum_valK j).
  move: (enum_val i) (enum_val j) => x z; rewrite -/(entry _ x z) -/(entry (Pm C s2 *m _) x z) !entry_perm0.
  have gen (t1 t2 : {perm Lg}) : (forall q, q \notin A -> t1 q = t2 q) -> [forall q in A, ~~ z q] -> along t1 x = z -> along t2 x = z.
    move=> Ht /forallP hz e; apply/ffunP => q; rewrite ffunE; have [qA|qA] := boolP (q \in A); last by rewrite -Ht // -e ffunE.
    have zq : z q = false by have := hz q; rewrite qA /= => /negbTE.
    rewrite zq; pose q' := (t1^-1 (t2 q))%g; have e2 : t1 q' = t2 q by rewrite permKV.
    have qA' : q' \in A.
      by apply: contraLR qA => nA; have := Ht _ nA; rewrite e2 => /perm_inj ->.
    by have := hz q'; rewrite qA' /= -e ffunE e2 => /negbTE.
  congr (_ %:R); have [hz|_] := boolP [forall q in A, ~~ z q]; last by rewrite !andbF.
  rewrite !andbT; congr nat_of_bool; apply/eqP/eqP; apply: gen => // q /H //.
Qed.
End Perms.

Section Empty.
Variable C : numClosedFieldType.
Local Notation gate := (gate C nat_eqType).
Local Notation op := (op nat gate).
Local Notation circ := (circ op).
Local Notation mat n := (mat C [finType of 'I_n.+1]).
Lemma is_empty_nil (c : circ) : is_empty c = true -> q_ops c = nil. Proof. by rewrite /is_empty; case: (q_ops c). Qed.

Section One.
Variables (n : nat) (c : circ) (s : {perm 'I_n.+1}).
Hypotheses (W : wf_circ c) (L : (q_n c <= n.+1)%N).
Hypothesis Ho : forall i v, (i, v) \in c_output _ _ _ (as_circuit n c) -> s (c_layout _ _ _ (as_circuit n c) i) = v.
Hypothesis Hu : forall q, untouched (as_circuit n c) q -> s q = q.
Lemma read_perm (q r : 'I_n.+1) : read_as c q r -> s q = r.
Proof.
have [Lm [Li [Lv [Om [Oi [Ov Ok]]]]]] := W.
move=> [p [Hl Hr]]; by have := Ho (outI n Om Hr); rewrite (lay_at n Hl) !inord_val.
Qed.
Lemma above_fixed (q : 'I_n.+1) : (q_n c <= q)%N -> s q = q.
Proof.
have [Lm [Li [Lv [Om [Oi [Ov Ok]]]]]] := W.
move=> Lq; apply: Hu; split.
- apply/negP => /mapP [[p w] Hin /= Eq]; have [v [Hv Ew]] := (outP p w Om).1 Hin.
  have Hlt : (v < q_n c)%coq_nat by apply: Ov; exists p.
  have : nat_of_ord q = v by rewrite Eq Ew inordK //; apply: leq_trans L; apply/ltP.
  by move=> E; move/ltP: Hlt; rewrite -E ltnNge Lq.
- move=> i Hi; have [l Hl] := (keysP n i Lm).1 Hi; rewrite (lay_at n Hl) => Eq; exfalso.
  have Hlt : (l < q_n c)%coq_nat by apply/Lv; exists i.
  have : nat_of_ord q = l by rewrite -Eq inordK //; apply: leq_trans L; apply/ltP.
  by move=> E; move/ltP: Hlt; rewrite -E ltnNge Lq.
Qed.
Lemma below_below (q : 'I_n.+1) : (q < q_n c)%N -> (s q < q_n c)%N.
Proof. by move=> Lq; rewrite ltnNge; apply/negP => H; have e := perm_inj (above_fixed H); move: H; rewrite e leqNgt Lq. Qed.
End One.

Lemma sharedP n (c1 c2 : circ) (q : 'I_n.+1) : q \notin common_ancillaries n c1 c2 <-> shared_input c1 c2 q.
Proof.
rewrite /common_ancillaries inE negb_or -ltnNge /shared_input leq_min; split.
  by case/andP => /andP [/ltP a /ltP b] /negbTE.
by move=> [/ltP a [/ltP b ->]]; rewrite a b.
Qed.
Lemma empty_op n (c : circ) V : q_ops c = nil -> realises (as_circuit n c) V -> exists s : {perm 'I_n.+1},
  [/\ V = Pm C s, forall i v, (i, v) \in c_output _ _ _ (as_circuit n c) -> s (c_layout _ _ _ (as_circuit n c) i) = v & forall q, untouched (as_circuit n c) q -> s q = q].
Proof. by move=> E [s [h1 h2 ->]]; exists s; split=> //; rewrite /as_circuit /= E mulmx1. Qed.

(** what is read out elsewhere is not equivalent, even up to a global phase *)
Theorem read_elsewhere n (c1 c2 : circ) (V1 V2 : mat n) (q r1 r2 : nat) : wf_circ c1 -> wf_circ c2 -> q_ops c1 = nil -> q_ops c2 = nil ->
  maxn (q_n c1) (q_n c2) = n.+1 -> realises (as_circuit n c1) V1 -> realises (as_circuit n c2) V2 ->
  shared_input c1 c2 q -> read_as c1 q r1 -> read_as c2 q r2 -> r1 <> r2 ->
  forall w, V1 *m proj0 C (common_ancillaries n c1 c2) <> w *: (V2 *m proj0 C (common_ancillaries n c1 c2)).
Proof.
move=> W1 W2 e1 e2 En /(empty_op e1) [s1 [-> o1 u1]] /(empty_op e2) [s2 [-> o2 u2]] Sq R1 R2 ne w /perm_agree [_ H].
have l1 : (q_n c1 <= n.+1)%N by rewrite -En leq_maxl.
have l2 : (q_n c2 <= n.+1)%N by rewrite -En leq_maxr.
have lt_out (c : circ) r : wf_circ c -> (q_n c <= n.+1)%N -> read_as c q r -> (r < n.+1)%N.
  by move=> [_ [_ [_ [_ [_ [Ov _]]]]]] l [p [_ Hr]]; apply: leq_trans l; apply/ltP; apply: Ov; exists p.
have hr1 := lt_out _ _ W1 l1 R1; have hr2 := lt_out _ _ W2 l2 R2.
have hq : (q < n.+1)%N by have [/ltP a _] := Sq; exact: leq_trans a l1.
have E := H (Ordinal hq) ((sharedP c1 c2 (Ordinal hq)).2 Sq).
have E1 := @read_perm n c1 s1 W1 o1 (Ordinal hq) (Ordinal hr1) R1.
have E2 := @read_perm n c2 s2 W2 o2 (Ordinal hq) (Ordinal hr2) R2.
by apply: ne; have := congr1 val (etrans (esym E1) (etrans E E2)).
Qed.

(** with all qubits read out, the operators agree exactly if the shared inputs are read out as the same qubits *)
Theorem agree_readout n (c1 c2 : circ) (V1 V2 : mat n) : wf_circ c1 -> wf_circ c2 -> q_ops c1 = nil -> q_ops c2 = nil ->
  reads_all c1 -> reads_all c2 -> maxn (q_n c1) (q_n c2) = n.+1 -> realises (as_circuit n c1) V1 -> realises (as_circuit n c2) V2 ->
  forall w, V1 *m proj0 C (common_ancillaries n c1 c2) = w *: (V2 *m proj0 C (common_ancillaries n c1 c2)) <-> w = 1 /\ same_readout c1 c2.
Proof.
move=> W1 W2 e1 e2 A1 A2 En /(empty_op e1) [s1 [-> o1 u1]] /(empty_op e2) [s2 [-> o2 u2]] w.
have l1 : (q_n c1 <= n.+1)%N by rewrite -En leq_maxl.
have l2 : (q_n c2 <= n.+1)%N by rewrite -En leq_maxr.
have back (c : circ) (s : {perm 'I_n.+1}) : wf_circ c -> (q_n c <= n.+1)%N -> reads_all c ->
    (forall i v, (i, v) \in c_output _ _ _ (as_circuit n c) -> s (c_layout _ _ _ (as_circuit n c) i) = v) ->
    forall r : 'I_n.+1, (r < q_n c)%N -> exists2 q : 'I_n.+1, read_as c q r & s q = r.
  move=> W l R o r Lr; have [Lm [Li [Lv [Om [Oi [Ov Ok]]]]]] := W; have [p Hp] := R r Lr.
  have [q Hq] := Ok p (ex_intro _ _ Hp).
  have Lq : (q < n.+1)%N by apply: leq_trans l; apply/ltP/Lv; exists p.
  by exists (Ordinal Lq); [exists p|apply: (read_perm W o); exists p].
split=> [/perm_agree [-> H]|[-> H]]; last first.
- apply/perm_agree; split=> // q /sharedP Sq; have [/ltP q1 [/ltP q2 _]] := Sq.
  have r1 : (s1 q < q_n c1)%N by exact: below_below.
  have [q' Rq' E] := back c1 s1 W1 l1 A1 o1 _ r1; have := perm_inj E => X; subst q'.
  by symmetry; apply: (read_perm W2 o2); apply/(H q (s1 q) Sq).
- split=> // q0 r0 Sq; have [/ltP q1 [/ltP q2 _]] := Sq.
  have hq : (q0 < n.+1)%N := leq_trans q1 l1.
  pose q := Ordinal hq; have E : s1 q = s2 q by apply: H; exact/sharedP.
  have step (c c' : circ) (s s' : {perm 'I_n.+1}) : wf_circ c -> wf_circ c' -> (q_n c <= n.+1)%N -> (q_n c' <= n.+1)%N -> reads_all c' ->
      (forall i v, (i, v) \in c_output _ _ _ (as_circuit n c) -> s (c_layout _ _ _ (as_circuit n c) i) = v) ->
      (forall i v, (i, v) \in c_output _ _ _ (as_circuit n c') -> s' (c_layout _ _ _ (as_circuit n c') i) = v) ->
      (forall q, untouched (as_circuit n c') q -> s' q = q) -> (q0 < q_n c')%N -> s q = s' q -> read_as c q0 r0 -> read_as c' q0 r0.
    move=> W W' l l' R o o' u' lq' Eq Rr.
    have lr : (r0 < n.+1)%N.
      by have [_ [_ [_ [_ [_ [Ov _]]]]]] := W; have [p [_ Hr]] := Rr; apply: leq_trans l; apply/ltP; apply: Ov; exists p.
    have E1 := @read_perm n c s W o q (Ordinal lr) Rr.
    have lr' : (Ordinal lr < q_n c')%N by rewrite -E1 Eq; apply: (below_below W' l' u').
    have [q' Rq' E2] := back c' s' W' l' R o' (Ordinal lr) lr'.
    by have X : q' = q by [apply: (@perm_inj _ s'); rewrite E2 -Eq E1]; subst q'.
  by split; [apply: (step c1 c2 s1 s2)|apply: (step c2 c1 s2 s1)].
Qed.

Lemma clamp_zero runSim t nq n n' : clamp_sims runSim t nq n = Some n' -> N.ltb 0 n' = N.ltb 0 n.
Proof.
case: runSim; case: t => /=; do ?[by case=> ->].
case: (N.leb 64 nq) => //; case: (N.leb nq 63) => /=; last by case=> ->.
case: (N.ltb_spec (N.shiftl 1 nq) n) => [l|_] [<-] //.
have p : (0 < N.shiftl 1 nq)%num by rewrite N.shiftl_1_l; apply/N.neq_0_lt_0/N.pow_nonzero.
by rewrite (proj2 (N.ltb_lt _ _) p) (proj2 (N.ltb_lt _ _) (N.lt_trans _ _ _ p l)).
Qed.
(** the constructor: no pass is applied, nothing is added, and something remains to be executed exactly if it was configured *)
Lemma construct_empty (apply : pass -> circ -> circ) isDynamic varfree nd cfg (c1 c2 c1' c2' : circ) s : wf_circ c1 -> wf_circ c2 ->
  is_empty c1 = true -> is_empty c2 = true -> construct (@on_qubits C) apply is_empty isDynamic varfree nd cfg c1 c2 = PVal (c1', c2', s) ->
  [/\ is_empty c1' = true, is_empty c2' = true & anythingToExecute (constructed cfg s) = anythingToExecute cfg].
Proof.
move=> W1 W2 E1 E2 EC; have [o1 [o2 [EO EP EF CL]]] := construct_parts EC.
have [? ?] : c1 = o1 /\ c2 = o2.
  by move: EO; rewrite /optimise /runOptimizationPasses E1 E2 /=; case: (_ && _) => -[].
subst o1 o2; have [X1 [X2 [EP' [q1 [q2 _]]]]] := C40_prepare (@on_qubits C) nd c1 c2 W1 W2.
move: EP'; rewrite EP => -[? ?]; subst X1 X2; split; first by rewrite /is_empty q1.
  by rewrite /is_empty q2.
rewrite /anythingToExecute /constructed /= (clamp_zero CL).
move: EF; rewrite /fallback; case: ifP => [/andP [-> _] [-> ->]|_ [-> ->]] //=; by rewrite !orbT.
Qed.

(** from the constructor to the verdict *)
Theorem empty_answer (apply : pass -> circ -> circ) isDynamic varfree nd cfg n (c1 c2 c1' c2' : circ) s :
  wf_circ c1 -> wf_circ c2 -> is_empty c1 = true -> is_empty c2 = true -> maxn (q_n c1) (q_n c2) = n.+1 ->
  construct (@on_qubits C) apply is_empty isDynamic varfree nd cfg c1 c2 = PVal (c1', c2', s) -> anythingToExecute cfg = true ->
  forall (Stim Gen : Type) fuel pf (e : env Stim Gen) ma, m_cfg ma = constructed cfg s -> e_empty e = is_empty c1' && is_empty c2' ->
  exists ma', [/\ SeqFlow.run fuel pf e ma = Returned ma', r_eq (m_res ma') = Equivalent &
    exists V1 V2 : mat n, [/\ realises (as_circuit n c1) V1, realises (as_circuit n c2) V2 &
    (reads_all c1 -> reads_all c2 -> (true_verdict (common_ancillaries n c1 c2) V1 V2 (r_eq (m_res ma')) <-> same_readout c1 c2))]].
Proof.
move=> W1 W2 E1 E2 En EC an Stim Gen fuel pf e ma Ec Ee.
have [E1' E2' ea] := construct_empty W1 W2 E1 E2 EC.
rewrite -Ec in ea; rewrite E1' E2' in Ee.
have [ma' [Er [Ev _]]] := @c13_empty Stim Gen fuel pf e ma (etrans ea an) Ee.
exists ma'; split=> //.
have l1 : (q_n c1 <= n.+1)%N by rewrite -En leq_maxl.
have l2 : (q_n c2 <= n.+1)%N by rewrite -En leq_maxr.
have wfc (c : circ) : wf_circ c -> (q_n c <= n.+1)%N -> is_empty c = true -> wf_circuit (as_circuit n c).
  by move=> W l E; apply: ok_wf; [exact: wf_ok|move=> o p; rewrite (is_empty_nil E)].
have [V1 [ms1 [R1 _]]] := computes_ex 0%N (wfc c1 W1 l1 E1).
have [V2 [ms2 [R2 _]]] := computes_ex 0%N (wfc c2 W2 l2 E2).
exists V1, V2; split=> // A1 A2; rewrite Ev /true_verdict.
have H := agree_readout W1 W2 (is_empty_nil E1) (is_empty_nil E2) A1 A2 En R1 R2 1.
rewrite scale1r in H; rewrite H; by split=> [[]|].
Qed.
End Empty.
