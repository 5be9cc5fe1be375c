(** An exact DD package exists; the hypotheses of the theorems are met by concrete circuits. *)
From Coq Require Import BinNums NArith.
From mathcomp Require Import all_ssreflect all_fingroup all_algebra.
From Verif Require Import Criterion Schemes DDCheck DDSpec DDProofs Qubits QubitsProofs GateProofs QubitsProofs2 DDSem DDSemProofs
  DDSemProofs2 DDSemProofs3 DDSemProofs4 DDSemProofs5 DDMain DDFlow DDFlowProofs DDDemo DDDemoProofs DDDemoProofs2.
Set Implicit Arguments.
Unset Strict Implicit.
Unset Printing Implicit Defensive.
Import GRing.Theory Num.Theory.
Local Open Scope ring_scope.

Section P.
Variables (C : numClosedFieldType) (Lg : finType) (Ph : eqType).
Lemma demo_close_test : closeness_test (@demo_close C Lg).
Proof.
split=> [F /and3P[/forallP H1 H2 /forallP H3]|w A Hw].
- split=> // [x y N|x]; first by apply/eqP; move: (H1 x) => /forallP /(_ y); rewrite N.
  by case/orP: (H3 x) => /eqP; [left|right].
- apply/and3P; rewrite !entry_scale !entry_proj0 !eqxx zeros0 mulr1; split=> //.
  + by apply/forallP => x; apply/forallP => y; apply/implyP => N; rewrite entry_scale entry_proj0 (negbTE N) mulr0.
  + by apply/forallP => x; rewrite entry_scale entry_proj0 eqxx /=; case: [forall _ in _, _]; rewrite ?mulr1 ?mulr0 eqxx ?orbT.
Qed.
Lemma demo_weight_of : weight_of (@demo_weight C Lg). Proof. by []. Qed.
Lemma demo_nodeP m n (e f : 'M[C]_(m, n)) : demo_node e f <-> exists2 w : C, w != 0 & e = w *: f.
Proof.
split.
- case/orP => [/andP[/eqP -> /eqP ->]|/existsP[i /existsP[j /and3P[N1 N2 /eqP E]]]]; first by exists 1; [exact: oner_neq0|rewrite scaler0].
  by exists (e i j / f i j) => //; rewrite mulf_neq0 // invr_eq0.
- move=> [w Hw ->]; case E : (f == 0); first by rewrite (eqP E) scaler0 /demo_node eqxx.
  apply/orP; right; have /existsP[i /existsP[j N]] : [exists i, exists j, f i j != 0].
    apply/negbNE; rewrite negb_exists; apply/negP => /forallP H; move/negP: E; apply; apply/eqP/matrixP => i j; rewrite mxE.
    by have := H i; rewrite negb_exists => /forallP /(_ j); rewrite negbK => /eqP.
  apply/existsP; exists i; apply/existsP; exists j; rewrite !mxE N mulfK // mulf_neq0 //=.
Qed.
Lemma demo_exact : exact_package (demo_package C Lg Ph).
Proof.
split; [exact: demo_close_test|exact: demo_weight_of|by move=> e f; exact: demo_nodeP|by move=> e f].
Qed.
Lemma demo_equals_exact (c1 c2 : circuit Ph Lg (gate C Ph)) : equals_exact (@demo_equals C Ph) c1 c2.
Proof.
move=> o1 o2 _ _ [c t m s] [c' t' m' s'] _ _ /and3P[/eqP /= E1 /eqP /= E2 /forallP H] p; subst c' t'.
apply: mxP => x y; rewrite !entry_mx /gker /=; case: ifP => // _; case: ifP => // _.
have Z (f : Ph -> bool) : size (map f t) == size t by rewrite size_map.
by have := H (Tuple (Z (fun t => x (p t)))) => /forallP /(_ (Tuple (Z (fun t => y (p t))))) /eqP.
Qed.
Lemma demo_equals_refl (g : gate C Ph) : demo_equals g g.
Proof. by rewrite /demo_equals !eqxx; apply/forallP => a; apply/forallP => b. Qed.
End P.

Section Q.
Variable C : numClosedFieldType.
Local Notation gate := (gate C bool_eqType).
Lemma qc2_unitary L O (gs : seq gate) : (forall g, List.In g gs -> unitary_gate bool_finType g) ->
  unitary_circuit (Lg := bool_finType) (Ph := bool_eqType) (qc2 L O (map (OGate bool gate) gs)).
Proof. by move=> H o /= /List.in_map_iff[g [<- Hg]]; exact: H. Qed.
Definition bell : seq gate := [:: xgate C false; cxgate C false true].
Lemma bell_unitary g : List.In g bell -> unitary_gate bool_finType g.
Proof. by case=> [<-|[<-|[]]]; [exact: xgate_unitary|exact: cxgate_unitary]. Qed.
End Q.
