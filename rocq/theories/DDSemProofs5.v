(** Verdicts of the construction and simulation checkers. *)
From Coq Require Import BinNums.
From mathcomp Require Import all_ssreflect all_fingroup all_algebra.
From Verif Require Import Criterion Schemes DDCheck DDSpec DDProofs Qubits QubitsProofs QubitsProofs2 DDSem DDSemProofs DDSemProofs2 DDSemProofs3 DDSemProofs4.
Set Implicit Arguments.
Unset Strict Implicit.
Unset Printing Implicit Defensive.
Import GRing.Theory Num.Theory.
Local Open Scope ring_scope.

Section P.
Variables (C : numClosedFieldType) (Lg : finType).
Local Notation mat := (mat C Lg).
Local Notation vec := (vec C Lg).
Local Notation proj0 := (@proj0 C Lg).
Local Notation basis0 := (basis0 Lg).

Section Con.
Variables (isClose : mat -> bool) (sameNode sameWeight : mat -> mat -> bool).
Hypotheses (hc : closeness_test isClose) (hn : @same_node_test C [lmodType C of mat] sameNode)
           (hw : @same_weight_test C [lmodType C of mat] sameNode sameWeight).
Variables (V1 V2 : mat) (A : {set Lg}).
Hypotheses (U1 : unitary V1) (U2 : unitary V2).
Local Notation verdict := (con_check isClose sameNode sameWeight (V1 *m proj0 A, V2 *m proj0 A)).

Lemma close_self (V : mat) : unitary V -> isClose (V *m proj0 A) -> exists2 w, w != 0 & V *m proj0 A = w *: proj0 A.
Proof.
move=> U Hcl; have Hd : diag_const (V *m proj0 A *m adj 1%:M) by rewrite adj_1 mulmx1; apply: hc.1.
have [N Hag _] := close_agree U (unitary_1 _ _) Hd; move: Hag; rewrite /agree_up_to mul1mx => Hag.
by exists (entry (V *m proj0 A *m adj 1%:M) basis0 basis0) => //; rewrite -normr_eq0 N oner_eq0.
Qed.

Lemma con_exact :
  [/\ verdict = Equivalent <-> V1 *m proj0 A = V2 *m proj0 A,
      verdict = EquivalentUpToGlobalPhase <-> exists w, [/\ `|w| = 1, w != 1 & agree_up_to A w V1 V2] &
      verdict = NotEquivalent <-> forall w, ~ agree_up_to A w V1 V2].
Proof.
have ag1 : V1 *m proj0 A = V2 *m proj0 A -> agree_up_to A 1 V1 V2 by rewrite /agree_up_to scale1r.
rewrite /con_check; case HN : (sameNode _ _).
- rewrite (hw HN); have [w Nw Hag] := (hn _ _).1 HN.
  case: eqP => [E|NE]; split; split=> //.
  + case=> w' [N' Nw' Hag']; exfalso; move: Hag'; rewrite /agree_up_to E => /(congr1 (mulmx (adj V2))).
    rewrite -scalemxAr mulmxA (unitary_left U2) mul1mx => /(congr1 (fun M => entry M basis0 basis0)).
    by rewrite entry_scale entry_proj0 eqxx zeros0 mulr1 => E1; rewrite -E1 eqxx in Nw'.
  + by move=> H; case: (H _ (ag1 E)).
  + move=> _; exists w; split=> //; first exact: agree_norm U1 U2 Hag.
    by apply: contra_notN NE => /eqP E1; move: Hag; rewrite E1 scale1r.
  + by move=> H; case: (H _ Hag).
- have HNo w : ~ agree_up_to A w V1 V2.
    move=> Hag; suff : sameNode (V1 *m proj0 A) (V2 *m proj0 A) by rewrite HN.
    by apply/hn; exists w => //; rewrite -normr_eq0 (agree_norm U1 U2 Hag) oner_eq0.
  have Hfalse b : (if b then NotEquivalent else NotEquivalent) = NotEquivalent by case: b.
  have -> : (if isClose (V1 *m proj0 A) || isClose (V2 *m proj0 A) then isClose (V1 *m proj0 A) && isClose (V2 *m proj0 A)
             else isClose (V1 *m proj0 A *m adj (V2 *m proj0 A))) = false.
    apply/negP; case: ifP => _.
    + case/andP => /(close_self U1)[w1 N1 E1] /(close_self U2)[w2 N2 E2]; apply: (HNo (w1 / w2)).
      by rewrite /agree_up_to E1 E2 scalerA divfK.
    + rewrite adj_mul adj_proj0 mulmxA -(mulmxA V1) proj0_idem => Hcl.
      have [_ Hag _] := close_agree U1 U2 (hc.1 _ Hcl); exact: HNo Hag.
  split; split=> //.
  + by move=> E; case: (HNo _ (ag1 E)).
  + by case=> w [_ _ Hw]; case: (HNo w).
Qed.
End Con.

(** ** simulation *)
Lemma inner_unitary (V : mat) (e f : vec) : unitary V -> inner (V *m e) (V *m f) = inner e f.
Proof. by move=> U; rewrite /inner adj_mul -mulmxA (mulmxA (adj V)) (unitary_left U) mul1mx. Qed.
Lemma inner_scaler (a : C) (e f : vec) : inner e (a *: f) = a * inner e f.
Proof. by rewrite /inner -scalemxAr mxE. Qed.
Lemma inner_scalel (a : C) (e f : vec) : inner (a *: e) f = a^* * inner e f.
Proof. by rewrite /inner adj_scale -scalemxAl mxE. Qed.
Lemma inner_conj (e f : vec) : inner f e = (inner e f)^*.
Proof.
have H : adj (adj e *m f) = adj f *m e by rewrite adj_mul adjK.
by rewrite /inner -H /adj mxE mxE.
Qed.
Lemma inner_subl (a b f : vec) : inner (a - b) f = inner a f - inner b f.
Proof. by rewrite /inner adj_sub mulmxBl !mxE. Qed.
Lemma inner_subr (a b f : vec) : inner f (a - b) = inner f a - inner f b.
Proof. by rewrite /inner mulmxBr !mxE. Qed.

Section Sim.
Variables (sameNode sameWeight : vec -> vec -> bool) (eps : C).
Hypothesis eps0 : 0 < eps.
Variables (e f : vec).
Hypotheses (ue : inner e e = 1) (uf : inner f f = 1).
Local Notation verdict := (sim_check sameNode sameWeight eps (e, f)).

Lemma unit_factor w : e = w *: f -> `|w| = 1.
Proof.
move=> E; move: ue; rewrite E inner_scalel inner_scaler uf mulr1 mulrC -normCK => /eqP.
by rewrite sqrp_eq1 ?normr_ge0 // => /eqP.
Qed.
Lemma fidelity w : e = w *: f -> `|inner e f| = 1.
Proof. by move=> E; rewrite E inner_scalel uf mulr1 norm_conjC (unit_factor E). Qed.

(** no assumption on when nodes are shared *)
Lemma sim_never_refutes w : e = w *: f -> verdict <> NotEquivalent.
Proof.
move=> E; rewrite /sim_check; case: ifP => _; first by case: ifP.
case: ifP => // _; by rewrite -normC2_Re_Im (fidelity E) expr1n subrr normr0 eps0.
Qed.

Hypotheses (hn : @same_node_test C [lmodType C of vec] sameNode) (hw : @same_weight_test C [lmodType C of vec] sameNode sameWeight).
Lemma sim_close : verdict = Equivalent -> inner (e - f) (e - f) < eps *+ 2.
Proof.
rewrite /sim_check; case HN : (sameNode e f).
  rewrite (hw HN); case: eqP => // -> _; rewrite subrr /inner mulmx0 mxE; by rewrite pmulrn_lgt0.
have EI : inner (e - f) (e - f) = (1 - 'Re (inner e f)) *+ 2.
  have R2 : 'Re (inner e f) *+ 2 = inner e f + (inner e f)^* by rewrite ReE -mulr_natr divfK ?pnatr_eq0.
  rewrite inner_subl !inner_subr ue uf (inner_conj e f) mulrnBl R2 opprB opprD [1 *+ 2]mulr2n.
  by rewrite -!addrA; congr (1 + _); rewrite [1 + (_ - _)]addrCA [1 - _]addrC.
case: ifP => [H _|_]; last by case: ifP.
rewrite EI ltr_pmuln2r //; apply: Order.POrderTheory.le_lt_trans H; rewrite distrC; exact: real_ler_norm (rpredB (rpred1 _) (Creal_Re _)).
Qed.
Lemma sim_phase : verdict = EquivalentUpToPhase -> `| `|inner e f| ^+ 2 - 1| < eps.
Proof.
rewrite /sim_check; case HN : (sameNode e f).
  by have [w _ E] := (hn _ _).1 HN => _; rewrite (fidelity E) expr1n subrr normr0.
case: ifP => // _; case: ifP => // H _; by rewrite normC2_Re_Im.
Qed.
End Sim.
End P.
