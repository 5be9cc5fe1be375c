(** The checkers in exact arithmetic, packaged. *)
From Coq Require Import BinNums.
From mathcomp Require Import all_ssreflect all_fingroup all_algebra.
From Verif Require Import Criterion Schemes DDCheck DDSpec DDProofs Qubits QubitsProofs GateProofs QubitsProofs2 DDSem DDSemProofs
  DDSemProofs2 DDSemProofs3 DDSemProofs4 DDSemProofs5.
Set Implicit Arguments.
Unset Strict Implicit.
Unset Printing Implicit Defensive.
Import GRing.Theory Num.Theory.
Local Open Scope ring_scope.

Section P.
Variables (C : numClosedFieldType) (Lg : finType) (Ph : eqType).
Local Notation mat := (mat C Lg).
Local Notation vec := (vec C Lg).
Local Notation gate := (gate C Ph).
Local Notation op := (op Ph gate).
Local Notation circuit := (circuit Ph Lg gate).
Local Notation ops := (c_ops Ph Lg gate).
Local Notation keys := (c_keys Ph Lg gate).
Local Notation layout := (c_layout Ph Lg gate).
Local Notation output := (c_output Ph Lg gate).


(** operators [V1], [V2] of the circuits that all checkers compute, whatever the application scheme *)
Theorem runs_compute (c1 c2 : circuit) (zero : Ph) : wf_circuit c1 -> wf_circuit c2 -> unitary_circuit c1 ->
  exists V1 V2, [/\ realises c1 V1, realises c2 V2 &
    forall (geqb : gate -> gate -> bool) (view : op -> opview) (sch : appscheme) (old : criterion), scheme_for c1 c2 sch ->
    [/\ forall (size : mat -> N) (A : {set Lg}) (check : mat -> criterion), alt_conditions geqb c1 c2 sch ->
          exists2 y, alt_run geqb view zero size sch never c1 c2 A check old
                      = RVerdict _ _ _ _ _ (check (V1 *m proj0 C A *m adj V2)) y & x_s _ _ _ _ _ y = V1 *m proj0 C A *m adj V2,
        forall (A1 A2 : {set Lg}) (check : mat * mat -> criterion), is_lookahead sch = false ->
          exists2 y, con_run geqb view zero sch never c1 c2 A1 A2 check old
                      = RVerdict _ _ _ _ _ (check (V1 *m proj0 C A1, V2 *m proj0 C A2)) y & x_s _ _ _ _ _ y = (V1 *m proj0 C A1, V2 *m proj0 C A2) &
        forall (phi : vec) (check : vec * vec -> criterion), is_lookahead sch = false ->
          exists2 y, sim_run geqb view zero sch never c1 c2 phi check old
                      = RVerdict _ _ _ _ _ (check (V1 *m phi, V2 *m phi)) y & x_s _ _ _ _ _ y = (V1 *m phi, V2 *m phi)]].
Proof.
move=> W1 W2 U1; have [V1 [ms1 [R1 K1]]] := computes_ex zero W1; have [V2 [ms2 [R2 K2]]] := computes_ex zero W2.
exists V1, V2; split=> // geqb view sch old hs; split.
- move=> size A check; rewrite /alt_conditions => H; apply: (alt_never view K1 K2) => // L; rewrite L in H => //.
  by case: H => HE HP; exact: placement_skips.
- by move=> A1 A2 check nl; apply: (con_never geqb view K1 K2).
- by move=> phi check nl; apply: (sim_never geqb view K1 K2).
Qed.

(** one task manager, in any portions *)
Lemma portions_value (ST : Type) (act : mat -> ST -> ST) (inv : bool) (ns : seq N) (t : tm Ph Lg gate) (s : ST) :
  exists t' s', [/\ tm_portions act inv ns t s = (t', s'), t_rest _ _ _ t' = [::],
    t_perm _ _ _ t' = (trace eq_op (@xpkg C Lg Ph) inv (t_rest _ _ _ t) (t_perm _ _ _ t)).2 &
    s' = acts act (trace eq_op (@xpkg C Lg Ph) inv (t_rest _ _ _ t) (t_perm _ _ _ t)).1 s].
Proof.
elim: ns t s => [|n ns IH] t s; rewrite /tm_portions /=.
  case E: (tm_finish _ _ _ _ _ _ _ _ _ _ _ _) => [t' s']; have [R [V _]] := tm_finish_value _ _ _ _ _ _ _ _ _ E.
  exists t', s'; split=> //; move: V; rewrite /value R /= => -[e1 e2]; [by rewrite e1|by rewrite e2].
case E1: (advance _ _ _ _ _ _ _ _ _ _ _ _ _) => [t1 s1]; have [V1 _] := advance_value _ _ _ _ _ _ _ _ _ _ _ E1.
case E2: (applySwapOperations _ _ _ _ _ _ _ _ _ _ _ _) => [t2 s2]; have [V2 _] := swapops_value _ _ _ _ _ _ _ _ _ E2.
have [t' [s' [H1 H2 H3 H4]]] := IH t2 s2; exists t', s'; split=> //.
- by move: V2; rewrite H3 -V1 /value => -[e1 _]; rewrite e1.
- by move: V2; rewrite H4 -V1 /value => -[_ e2]; rewrite e2.
Qed.
Lemma portions_realise (c : circuit) (zero : Ph) : wf_circuit c ->
  exists V : mat, realises c V /\
    (forall (ns : seq N) (phi : vec), exists t s p,
       tm_portions (fun m v => m *m v) false ns (tm_reset _ _ _ c) phi = (t, s) /\ t_rest _ _ _ t = [::] /\
       changePermutation Ph Lg gate mat eq_op eq_op (@xpkg C Lg Ph) vec (fun m v => m *m v) zero (c_keys _ _ _ c) (t_perm _ _ _ t) (c_output _ _ _ c) s
         = Some (p, V *m phi)) /\
    (forall (ns : seq N) (F : mat), exists t s p,
       tm_portions (fun m f => f *m m) true ns (tm_reset _ _ _ c) F = (t, s) /\ t_rest _ _ _ t = [::] /\
       changePermutation Ph Lg gate mat eq_op eq_op (@xpkg C Lg Ph) mat (fun m f => f *m m) zero (c_keys _ _ _ c) (t_perm _ _ _ t) (c_output _ _ _ c) s
         = Some (p, F *m adj V)).
Proof.
move=> W; have [V [ms [R [[p H1] H2 H3 H4]]]] := computes_ex zero W; exists V; split=> //; split=> ns x.
- have [t [s [E1 E2 E3 E4]]] := portions_value (fun m (v : vec) => m *m v) false ns (tm_reset _ _ _ c) x.
  exists t, s, p; split=> //; split=> //; rewrite E3 E4 /= H1 !acts_leftv mulmxA H2 //.
- have [t [s [E1 E2 E3 E4]]] := portions_value (fun m (f : mat) => f *m m) true ns (tm_reset _ _ _ c) x.
  exists t, s, p; split=> //; split=> //; rewrite E3 E4 /= H1 H4 acts_right -H3 acts_right -mulmxA -adj_mul H2 //.
Qed.
End P.
