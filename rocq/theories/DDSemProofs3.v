(** The alternating criterion: when U1 P U2^-1 is a multiple of a projector. *)
From Coq Require Import BinNums.
From mathcomp Require Import all_ssreflect all_fingroup all_algebra.
From Verif Require Import Criterion Schemes DDCheck DDSpec DDProofs Qubits QubitsProofs QubitsProofs2 DDSem DDSemProofs DDSemProofs2.
Set Implicit Arguments.
Unset Strict Implicit.
Unset Printing Implicit Defensive.
Import GRing.Theory Num.Theory.
Local Open Scope ring_scope.

Section P.
Variables (C : numClosedFieldType) (Lg : finType).
Local Notation mat := (mat C Lg).
Local Notation Pm := (@Pm C Lg).
Local Notation proj0 := (@proj0 C Lg).
Local Notation basis0 := (basis0 Lg).

Lemma zeros0 (A : {set Lg}) : [forall q in A, ~~ basis0 q].
Proof. by apply/forallP => q; apply/implyP => _; rewrite ffunE. Qed.

(** ** close to the identity implies agreement *)
Section Close.
Variables (V1 V2 : mat) (A : {set Lg}).
Hypotheses (U1 : unitary V1) (U2 : unitary V2).
Local Notation P := (proj0 A).
Local Notation F := (V1 *m P *m adj V2).

Lemma FFadj : F *m adj F = V1 *m P *m adj V1.
Proof.
rewrite !adj_mul adjK adj_proj0 !mulmxA -(mulmxA _ (adj V2)) (unitary_left U2) mulmx1.
by rewrite -(mulmxA V1) proj0_idem.
Qed.
Lemma E1_idem : (V1 *m P *m adj V1) *m (V1 *m P *m adj V1) = V1 *m P *m adj V1.
Proof. by rewrite !mulmxA -(mulmxA _ (adj V1) V1) (unitary_left U1) mulmx1 -(mulmxA V1) proj0_idem. Qed.

Lemma close_agree : diag_const F -> [/\ `|entry F basis0 basis0| = 1, agree_up_to A (entry F basis0 basis0) V1 V2 &
  V1 *m P *m adj V1 = (entry F basis0 basis0)^* *: F].
Proof.
case=> Hoff Hnz Hdiag; set w := entry F basis0 basis0.
pose Dg : mat := mx (fun x y => ((x == y) && (entry F x x != 0))%:R).
have HF : F = w *: Dg.
  apply: mxP => x y; rewrite entry_scale entry_mx; case: (eqVneq x y) => [<-|Nxy] /=; last by rewrite mulr0 Hoff.
  case: (Hdiag x) => [E|E]; first by rewrite E eqxx mulr0.
  by rewrite {2}E Hnz mulr1.
have Da : adj Dg = Dg.
  by apply: mxP => x y; rewrite entry_adj !entry_mx conjC_nat eq_sym; case: eqP => [->|].
have DD : Dg *m Dg = Dg.
  apply: mxP => x z; rewrite entry_mul (bigD1 x) //= big1 ?addr0; last first.
    by move=> y Hy; rewrite entry_mx eq_sym (negbTE Hy) mul0r.
  rewrite !entry_mx eqxx /=; case: (x == z) => /=; last by rewrite mulr0.
  by rewrite -natrM mulnb andbb.
have D0 : entry Dg basis0 basis0 = 1 by rewrite entry_mx eqxx Hnz.
have E1 : V1 *m P *m adj V1 = (w * w^*) *: Dg.
  by rewrite -FFadj HF adj_scale Da -scalemxAl -scalemxAr DD scalerA.
have Hw : w * w^* = 1.
  have := E1_idem; rewrite E1 -scalemxAl -scalemxAr DD scalerA => /(congr1 (fun M => entry M basis0 basis0)).
  rewrite !entry_scale D0 !mulr1 => /eqP; rewrite -subr_eq0 -{3}[w * w^*]mulr1 -mulrBr mulf_eq0 mul_conjC_eq0 (negbTE Hnz) /=.
  by rewrite subr_eq0 => /eqP.
have E1' : V1 *m P *m adj V1 = w^* *: F by rewrite E1 HF scalerA mulrC.
split=> //.
- by apply/eqP; rewrite -(@eqr_expn2 _ 2) ?ler01 // normCK Hw expr1n.
- rewrite /agree_up_to.
  have := congr1 (mulmx (adj V1)) E1'; rewrite -scalemxAr !mulmxA (unitary_left U1) !mul1mx => /(congr1 (@adj C _ _)).
  rewrite adj_scale !adj_mul !adjK adj_proj0 conjCK => H; by rewrite H.
Qed.
End Close.

(** ** agreement implies close to the identity, if the ancillaries are handled *)
Lemma trace_proj0 (A B : {set Lg}) : #|A| = #|B| -> \tr (proj0 A) = \tr (proj0 B).
Proof.
suff H (X : {set Lg}) : \tr (proj0 X) = (2 ^ #|~: X|)%:R.
  by move=> E; rewrite !H; congr ((2 ^ _)%:R); apply/eqP; rewrite -(eqn_add2l #|A|) cardsC E cardsC.
rewrite mxtrace_entry.
have -> : \sum_x entry (proj0 X) x x = \sum_(x : basis Lg) ([forall q in X, ~~ x q])%:R :> C.
  by apply: eq_bigr => x _; rewrite entry_proj0 eqxx.
rewrite -natr_sum; congr (_%:R).
pose fam q : pred bool := if q \in X then pred1 false else predT.
have -> : (\sum_(x : basis Lg) [forall q in X, ~~ x q] = #|family fam|)%N.
  rewrite -sum1_card [RHS]big_mkcond /=; apply: eq_bigr => x _.
  suff -> : [forall q in X, ~~ x q] = (x \in family fam) by case: (x \in _).
  apply/forallP/familyP => H q.
  - by rewrite /fam; move: (H q); case: (q \in X) => //=; rewrite inE; case: (x q).
  - by move: (H q); rewrite /fam; case: (q \in X) => //=; rewrite inE; case: (x q).
rewrite card_family foldrE big_map big_enum /=.
rewrite (bigID (mem X)) /= big1 ?mul1n; last by move=> q Hq; rewrite /fam Hq card1.
rewrite (eq_bigr (fun=> 2%N)); last by move=> q /negbTE Hq; rewrite /fam Hq card_bool.
by rewrite prod_nat_const; congr (2 ^ _)%N; apply: eq_card => q; rewrite !inE.
Qed.

Lemma proj_eq (E : mat) (B : {set Lg}) : E *m E = E -> adj E = E -> proj0 B *m E = E -> \tr E = \tr (proj0 B) -> E = proj0 B.
Proof.
move=> EE Ea QE Ht.
have EQ : E *m proj0 B = E by have := congr1 (@adj C _ _) QE; rewrite adj_mul adj_proj0 Ea.
suff : proj0 B - E = 0 by move/eqP; rewrite subr_eq0 => /eqP.
apply: tr_adj_eq0; rewrite adj_sub adj_proj0 Ea mulmxBl !mulmxBr proj0_idem QE EQ EE subrr subr0.
by rewrite raddfB /= Ht subrr.
Qed.

(** an operator that maps the zeros of [A1] to the zeros of [B1] *)
Lemma agree_close (V1 V2 : mat) (A A1 A2 B1 B2 : {set Lg}) w :
  unitary V1 -> unitary V2 -> A = A1 :|: A2 -> [disjoint B1 & B2] -> #|B1| = #|A1| -> #|B2| = #|A2| -> [disjoint A1 & A2] ->
  V1 *m proj0 A1 = proj0 B1 *m V1 -> V2 *m proj0 A2 = proj0 B2 *m V2 ->
  `|w| = 1 -> agree_up_to A w V1 V2 -> V1 *m proj0 A *m adj V2 = w *: proj0 (B1 :|: B2).
Proof.
move=> U1 U2 EA DB C1 C2 DA H1 H2 Hw Hag.
have Hww : w^* * w = 1 by rewrite mulrC -normCK Hw expr1n.
pose E := V2 *m proj0 A *m adj V2.
have EF : V1 *m proj0 A *m adj V2 = w *: E by rewrite Hag /E -scalemxAl.
have EE1 : V1 *m proj0 A *m adj V1 = E.
  rewrite {1}Hag -scalemxAl.
  have Ha : proj0 A *m adj V1 = w^* *: (proj0 A *m adj V2).
    by have := congr1 (@adj C _ _) Hag; rewrite adj_scale !adj_mul !adj_proj0.
  by rewrite -mulmxA Ha -scalemxAr scalerA mulrC Hww scale1r mulmxA.
rewrite EF; congr (_ *: _).
have EI : E *m E = E by rewrite /E !mulmxA -(mulmxA _ (adj V2) V2) (unitary_left U2) mulmx1 -(mulmxA V2) proj0_idem.
have Ea : adj E = E by rewrite /E !adj_mul adjK adj_proj0 mulmxA.
apply: proj_eq => //.
- rewrite -proj0_mul -mulmxA.
  have Q2 : proj0 B2 *m E = E.
    rewrite /E !mulmxA -H2 -(mulmxA V2) proj0_mul; congr (_ *m proj0 _ *m _).
    by rewrite EA setUCA setUid setUC.
  have Q1 : proj0 B1 *m E = E.
    rewrite -EE1 !mulmxA -H1 -(mulmxA V1) proj0_mul; congr (_ *m proj0 _ *m _).
    by rewrite EA setUA setUid.
  by rewrite Q2 Q1.
- rewrite /E mxtrace_mulC mulmxA (unitary_left U2) mul1mx; apply: trace_proj0.
  by rewrite EA !cardsU (disjoint_setI0 DA) (disjoint_setI0 DB) !cards0 !subn0 C1 C2.
Qed.
End P.
