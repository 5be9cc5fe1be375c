(** Proofs for C74. *)
From Coq Require Import BinNums NArith List Arith Lia.
From mathcomp Require Import all_ssreflect all_fingroup all_algebra.
From Verif Require Import Criterion Config SeqFlow SeqSpec VerdictSpec ParFlow ParSpec Perm PermSpec Prep PrepSpec Passes PassesSpec StateGen Stim StimSpec
  Schemes DDCheck DDSpec Qubits QubitsProofs DDSem DDSemProofs2 DDSemProofs4 DDFlow PrepSem PrepSemProofs2 PrepSemProofs3 Choice ParDecide StimSem Construct ConstructProofs2 Relation.
Set Implicit Arguments.
Unset Strict Implicit.
Unset Printing Implicit Defensive.
Import GRing.Theory Num.Theory.
Local Open Scope ring_scope.

Section Verdicts.
Variable C : numClosedFieldType.
Variable Lg : finType.
Local Notation mat := (mat C Lg).
Lemma proj0_neq0 (A : {set Lg}) : proj0 C A != 0.
Proof.
apply/negP => /eqP H.
have := congr1 (fun M : mat => entry M [ffun => false] [ffun => false]) H.
rewrite entry_0 /proj0 entry_mx eqxx /=.
have -> : [forall q in A, ~~ [ffun=> false] q] by apply/forallP => q; rewrite ffunE implybT.
by move/eqP; rewrite oner_eq0.
Qed.
Lemma agree_dec (A : {set Lg}) (V1 V2 : mat) : unitary V2 ->
  (exists w, V1 *m proj0 C A = w *: (V2 *m proj0 C A)) \/ (forall w, V1 *m proj0 C A <> w *: (V2 *m proj0 C A)).
Proof.
move=> U2; set M1 := V1 *m _; set M2 := V2 *m _.
have N2 : M2 != 0.
  apply/negP => /eqP H; have := proj0_neq0 A; rewrite -[proj0 C A]mul1mx -(unitary_left U2) -mulmxA -/M2 H mulmx0 eqxx //.
have /existsP [i /existsP [j Hij]] : [exists i, exists j, M2 i j != 0].
  have [//|/existsPn H] := boolP [exists i, exists j, M2 i j != 0]; exfalso; move/negP: N2; apply; apply/eqP/matrixP => i j; rewrite [RHS]mxE.
  by have := H i; move=> /existsPn /(_ j); rewrite negbK => /eqP.
have [/eqP E|E] := boolP (M1 == (M1 i j / M2 i j) *: M2); first by left; exists (M1 i j / M2 i j).
right => w Ew; move/negP: E; apply; apply/eqP.
by rewrite {2}Ew [(w *: M2) i j]mxE mulfK.
Qed.
(** the three definite verdicts exhaust the possibilities *)
Lemma right_answer_cases (A : {set Lg}) (V1 V2 : mat) v : unitary V1 -> unitary V2 -> right_answer A V1 V2 v ->
  [\/ v = Equivalent, v = EquivalentUpToGlobalPhase | v = NotEquivalent].
Proof.
move=> U1 U2 [HE HG HN].
have [[w Ew]|H] := agree_dec A V1 U2; last by constructor 3; apply/HN.
have [E1|N1] := eqVneq w 1; first by constructor 1; apply/HE; rewrite Ew E1 scale1r.
constructor 2; apply/HG; exists w; split=> //; exact: agree_norm U1 U2 Ew.
Qed.
Lemma right_answer_fun (A : {set Lg}) (V1 V2 : mat) v v' : unitary V1 -> unitary V2 -> right_answer A V1 V2 v -> right_answer A V1 V2 v' -> v = v'.
Proof.
move=> U1 U2 R [HE HG HN]; have [HE' HG' HN'] := R.
by case: (right_answer_cases U1 U2 R) => E; subst v; symmetry; [apply/HE; apply/HE'|apply/HG; apply/HG'|apply/HN; apply/HN'].
Qed.
Lemma right_answer_sym (A : {set Lg}) (V1 V2 : mat) v : unitary V1 -> unitary V2 -> right_answer A V1 V2 v -> right_answer A V2 V1 v.
Proof.
move=> U1 U2 [HE HG HN].
have flip W1 W2 w : `|w| = 1 -> W1 *m proj0 C A = w *: (W2 *m proj0 C A) -> W2 *m proj0 C A = w^-1 *: (W1 *m proj0 C A) :> mat.
  move=> nw ->; rewrite scalerA mulVf ?scale1r // -normr_eq0 nw; exact: oner_neq0.
have nV (w : C) : `|w| = 1 -> `|w^-1| = 1 by move=> nw; rewrite normfV nw invr1.
split; first by rewrite HE; split=> ->.
- rewrite HG; split=> -[w [nw w1 E]]; exists w^-1; (split; [exact: nV|by rewrite invr_eq1|exact: flip]).
- rewrite HN; split=> H w E; apply: (H w^-1); apply: flip => //.
  + exact: agree_norm U2 U1 E.
  + exact: agree_norm U1 U2 E.
Qed.
End Verdicts.

Section Uniq.
Variable C : numClosedFieldType.
Local Notation gate := (gate C nat_eqType).
Local Notation op := (op nat gate).
Local Notation circ := (circ op).
Lemma realises_uniq n (c : circ) V V' : wf_circ c -> (q_n c <= n.+1)%N -> reads_all c ->
  realises (as_circuit n c) V -> realises (as_circuit n c) V' -> V = V'.
Proof.
move=> W Ln R [s [Ho Hu ->]] [s' [Ho' Hu' ->]]; congr (Pm _ _ *m _).
have [Lm [Li [Lv [Om [Oi [Ov Ok]]]]]] := W.
suff H q : exists2 r, s r = q & s' r = q.
  apply/perm.permP => r; have [r0 e e'] := H (s r); by rewrite -(perm_inj e) e' -(perm_inj e).
have [Lq|Lq] := ltnP q (q_n c).
  have [p Hp] := R q Lq; have Hin := outI n Om Hp; rewrite inord_val in Hin.
  by exists (c_layout _ _ _ (as_circuit n c) p); [exact: Ho|exact: Ho'].
suff U : untouched (as_circuit n c) q by exists q; [exact: Hu|exact: Hu'].
split.
- apply/negP => /mapP [[p w] Hin /= Eq]; have [v [Hv Ew]] := (outP p w Om).1 Hin.
  have Hlt : (v < q_n c)%coq_nat by apply: Ov; exists p.
  have : nat_of_ord q = v by rewrite Eq Ew inordK //; apply: leq_trans Ln; apply/ltP.
  by move=> E; move/ltP: Hlt; rewrite -E ltnNge Lq.
- move=> i Hi; have [l Hl] := (keysP n i Lm).1 Hi; rewrite (lay_at n Hl) => Eq; exfalso.
  have Hlt : (l < q_n c)%coq_nat by apply/Lv; exists i.
  have : nat_of_ord q = l by rewrite -Eq inordK //; apply: leq_trans Ln; apply/ltP.
  by move=> E; move/ltP: Hlt; rewrite -E ltnNge Lq.
Qed.
End Uniq.

Section Main.
Variable C : numClosedFieldType.
Local Notation gate := (gate C nat_eqType).
Local Notation op := (op nat gate).
Local Notation circ := (circ op).
Local Notation mat n := (mat C [finType of 'I_n.+1]).

Lemma answers_right n (c1 c2 : circ) v : answers n c1 c2 v -> exists V1 V2 : mat n,
  [/\ realises (as_circuit n c1) V1, realises (as_circuit n c2) V2 & right_answer (common_ancillaries n c1 c2) V1 V2 v].
Proof.
case.
- move=> m c1' c2' cfg s MT e fuel pf ma ma' [apply [isE [isD [vf [nd [[G1 G2 AG] [d1 d2 KM] EX EC [En Em]]]]]]]
    [q [sch [eps [zero [word [unif [t [cl [[hq hs e0] hc hst hd]]]]]]]]] CK PR ER.
  have [V1 [V2 [R1 R2 H]]] := construct_seq G1 G2 AG d1 d2 KM EX EC En Em zero.
  have [ma0 [E0 RA]] := H q sch eps hq hs e0 MT word unif t e cl hc hst hd CK fuel pf ma PR.
  by exists V1, V2; split=> //; move: E0; rewrite ER => -[->].
- move=> m c1' c2' cfg s MT e g pp x [apply [isE [isD [vf [nd [[G1 G2 AG] [d1 d2 KM] EX EC [En Em]]]]]]]
    [q [sch [eps [zero [word [unif [t [cl [[hq hs e0] hc hst hd]]]]]]]]] CK PR NZ RE.
  have [V1 [V2 [R1 R2 H]]] := construct_par G1 G2 AG d1 d2 KM EX EC En Em zero.
  have [_ RA] := H q sch eps hq hs e0 MT word unif t e cl hc hst hd CK g pp x PR NZ RE.
  by exists V1, V2; split.
Qed.
Lemma answers_good n (c1 c2 : circ) v : answers n c1 c2 v -> [/\ good_circuit n c1, good_circuit n c2, ancillaries_agree c1 c2 & maxn (q_n c1) (q_n c2) = n.+1].
Proof. by case=> [m c1' c2' cfg s MT e fuel pf ma ma'|m c1' c2' cfg s MT e g pp x] [apply [isE [isD [vf [nd [[? ? ?] _ _ _ []]]]]]]. Qed.

Section Good.
Variables (n : nat) (c : circ).
Hypothesis G : good_circuit n c.
Hypothesis L : (q_n c <= n.+1)%N.
Lemma good_wf : wf_circuit (as_circuit n c).
Proof. by have [W a _ _ _] := G; apply: (@ok_wf C n c) => //; exact: wf_ok. Qed.
Lemma good_unitary V : realises (as_circuit n c) V -> unitary V.
Proof. by have [_ _ _ _ U] := G; exact: unitary_realises good_wf U. Qed.
End Good.

Lemma answers_facts n (c1 c2 : circ) v : answers n c1 c2 v -> exists V1 V2 : mat n,
  [/\ realises (as_circuit n c1) V1, realises (as_circuit n c2) V2, unitary V1, unitary V2 & right_answer (common_ancillaries n c1 c2) V1 V2 v].
Proof.
move=> H; have [G1 G2 _ En] := answers_good H; have [V1 [V2 [R1 R2 RA]]] := answers_right H.
have L1 : (q_n c1 <= n.+1)%N by rewrite -En leq_maxl.
have L2 : (q_n c2 <= n.+1)%N by rewrite -En leq_maxr.
exists V1, V2; split=> //; [exact: (good_unitary G1 L1 R1)|exact: (good_unitary G2 L2 R2)].
Qed.
Lemma le1 n (c1 c2 : circ) v : answers n c1 c2 v -> (q_n c1 <= n.+1)%N /\ (q_n c2 <= n.+1)%N.
Proof. by move=> /answers_good [_ _ _ <-]; rewrite leq_maxl leq_maxr. Qed.

Theorem answers_definite n (c1 c2 : circ) v : answers n c1 c2 v -> [\/ v = Equivalent, v = EquivalentUpToGlobalPhase | v = NotEquivalent].
Proof. by move=> /answers_facts [V1 [V2 [_ _ U1 U2 RA]]]; exact: right_answer_cases U1 U2 RA. Qed.

Lemma uniq_of n (c1 c2 : circ) v V V' : answers n c1 c2 v -> reads_all c1 -> realises (as_circuit n c1) V -> realises (as_circuit n c1) V' -> V = V'.
Proof. by move=> H R; have [L _] := le1 H; have [[W _ _ _ _] _ _ _] := answers_good H; exact: realises_uniq W L R. Qed.
Lemma uniq_of2 n (c1 c2 : circ) v V V' : answers n c1 c2 v -> reads_all c2 -> realises (as_circuit n c2) V -> realises (as_circuit n c2) V' -> V = V'.
Proof. by move=> H R; have [_ L] := le1 H; have [_ [W _ _ _ _] _ _] := answers_good H; exact: realises_uniq W L R. Qed.

Theorem answers_determined n (c1 c2 : circ) v v' : reads_all c1 -> reads_all c2 -> answers n c1 c2 v -> answers n c1 c2 v' -> v = v'.
Proof.
move=> r1 r2 H H'; have [V1 [V2 [R1 R2 U1 U2 RA]]] := answers_facts H; have [W1 [W2 [R1' R2' _ _ RA']]] := answers_facts H'.
rewrite (uniq_of H r1 R1' R1) (uniq_of2 H r2 R2' R2) in RA'; exact: right_answer_fun U1 U2 RA RA'.
Qed.
Theorem answers_sym n (c1 c2 : circ) v v' : reads_all c1 -> reads_all c2 -> answers n c1 c2 v -> answers n c2 c1 v' -> v = v'.
Proof.
move=> r1 r2 H H'; have [V1 [V2 [R1 R2 U1 U2 RA]]] := answers_facts H; have [W2 [W1 [R2' R1' _ _ RA']]] := answers_facts H'.
rewrite (uniq_of2 H' r1 R1' R1) (uniq_of H' r2 R2' R2) anc_sym in RA'.
exact: right_answer_fun U1 U2 RA (right_answer_sym U2 U1 RA').
Qed.
Theorem answers_self n (c : circ) v : reads_all c -> answers n c c v -> v = Equivalent.
Proof.
move=> r H; have [V1 [V2 [R1 R2 U1 U2 [HE _ _]]]] := answers_facts H.
by apply/HE; rewrite (uniq_of H r R1 R2).
Qed.

Lemma common_same n (c1 c2 d1 d2 : circ) : same_qubits c1 d1 -> same_qubits c2 d2 -> common_ancillaries n c1 c2 = common_ancillaries n d1 d2.
Proof. by move=> [e1 a1] [e2 a2]; apply/setP => q; rewrite !inE e1 e2 a1 a2. Qed.

Theorem answers_congruent n (c1 c2 c3 : circ) v v' : reads_all c1 -> reads_all c2 -> reads_all c3 -> same_qubits c1 c2 -> same_qubits c2 c3 ->
  answers n c1 c2 Equivalent -> answers n c1 c3 v -> answers n c2 c3 v' -> v = v'.
Proof.
move=> r1 r2 r3 s12 s23 H12 H13 H23.
have [V1 [V2 [R1 R2 U1 U2 [E' _ _]]]] := answers_facts H12; have E := E'.1 erefl.
have [W1 [V3 [R1' R3 _ U3 RA]]] := answers_facts H13; have [W2 [W3 [R2' R3' _ _ RA']]] := answers_facts H23.
rewrite (uniq_of H12 r1 R1' R1) in RA; rewrite (uniq_of2 H12 r2 R2' R2) (uniq_of2 H13 r3 R3' R3) in RA'.
have s22 : same_qubits c2 c2 by []. have s33 : same_qubits c3 c3 by []. have s32 : same_qubits c3 c2 by case: s23 => a b; split.
rewrite (common_same n s12 s33) in RA; rewrite (common_same n s12 s22) -(common_same n s22 s32) in E.
by apply: right_answer_fun U2 U3 _ RA'; move: RA; rewrite /right_answer E.
Qed.
Theorem answers_transitive n (c1 c2 c3 : circ) v v' v'' : reads_all c1 -> reads_all c2 -> reads_all c3 -> same_qubits c1 c2 -> same_qubits c2 c3 ->
  answers n c1 c2 v -> answers n c2 c3 v' -> answers n c1 c3 v'' -> v <> NotEquivalent -> v' <> NotEquivalent -> v'' <> NotEquivalent.
Proof.
move=> r1 r2 r3 s12 s23 H12 H23 H13 N12 N23 E13.
have [V1 [V2 [R1 R2 U1 U2 [_ _ P12]]]] := answers_facts H12.
have [W2 [V3 [R2' R3 _ U3 [_ _ P23]]]] := answers_facts H23.
have [W1 [W3 [R1' R3' _ _ [_ _ P13]]]] := answers_facts H13.
rewrite (uniq_of2 H12 r2 R2' R2) in P23; rewrite (uniq_of H12 r1 R1' R1) (uniq_of2 H23 r3 R3' R3) in P13.
have {}E13 := P13.1 E13.
have s22 : same_qubits c2 c2 by []. have s33 : same_qubits c3 c3 by []. have s32 : same_qubits c3 c2 by case: s23 => a b; split.
have A12 : common_ancillaries n c1 c2 = common_ancillaries n c2 c2 := common_same n s12 s22.
have A23 : common_ancillaries n c2 c3 = common_ancillaries n c2 c2 := common_same n s22 s32.
have A13 : common_ancillaries n c1 c3 = common_ancillaries n c2 c2 := common_same n s12 s32.
rewrite A12 in P12; rewrite A23 in P23; rewrite A13 in E13.
have [[w Ew]|H] := agree_dec (common_ancillaries n c2 c2) V1 U2; last by apply: N12; apply/P12.
have [[u Eu]|H] := agree_dec (common_ancillaries n c2 c2) V2 U3; last by apply: N23; apply/P23.
by apply: (E13 (w * u)); rewrite Ew Eu scalerA.
Qed.
End Main.
