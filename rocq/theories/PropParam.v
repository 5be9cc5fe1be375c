(** C70: what the answer for parameterised circuits says about the circuits as given: 'not equivalent' comes from values of the parameters at
    which the circuits differ, equivalence found by the symbolic check holds for all values, and equivalence found by instantiation
    holds at the randomly chosen values. Property file. *)
From Coq Require Import BinNums NArith List Arith QArith Qabs.
From mathcomp Require Import all_ssreflect all_fingroup all_algebra.
From Verif Require Import Criterion Config SeqFlow SeqSpec SeqDemo VerdictSpec ParFlow ParSpec Perm Prep PrepSpec Passes PassesSpec PrepSem StateGen Stim StimSpec StimSem
  Schemes DDCheck DDSpec Qubits DDSem DDFlow ZX ZXSpec ZXSem Construct ConstructDemo PyParam PyParamSpec ParamInst ParamSem ParamProofs2 ParamDemo ParamDemo2.
Set Implicit Arguments.
Unset Strict Implicit.
Unset Printing Implicit Defensive.
Import GRing.Theory Num.Theory.
Local Open Scope ring_scope.

Section P.
Variable C : numClosedFieldType.
Local Notation gate := (gate C nat_eqType).
Local Notation op := (op nat gate).
Local Notation pcirc := (circ (pop op)).

(** each check of an instantiation by a manager tells the truth about the two instantiated circuits *)
Theorem C70_checks_honest : forall n cfg (s : sampling) (c1 c2 : pcirc) (e : penv), checks_made n cfg s c1 c2 e -> honest_checks n s c1 c2 e.
Proof. exact: (@made_honest C). Qed.

(** 'not equivalent': one of the checked pairs of circuits - the parameters bound to values and, except in the last check, rounded - differs *)
Theorem C70_not_equivalent_sampled : forall n cfg (s : sampling) (c1 c2 : pcirc) (e : penv) timeout k r log,
  checks_made n cfg s c1 c2 e -> check_parameterized e timeout k = (r, log) -> r_eq r = NotEquivalent ->
  exists2 p, List.In p (sampled_pairs s c1 c2 k) & differ n p.1 p.2.
Proof. move=> n cfg s c1 c2 e timeout k r log /made_honest H; exact: (refuted H). Qed.
(** hence, unless rounding changes something, there are values of the parameters at which the circuits as given differ *)
Theorem C70_not_equivalent : forall n cfg (s : sampling) (c1 c2 : pcirc) (e : penv) timeout k r log,
  checks_made n cfg s c1 c2 e -> depends_on_numbers c1 -> depends_on_numbers c2 ->
  (forall a, solved_values s c1 c2 k a -> nothing_to_round (s_tol s) a c1 /\ nothing_to_round (s_tol s) a c2) ->
  check_parameterized e timeout k = (r, log) -> r_eq r = NotEquivalent -> exists a, differ n (bind a c1) (bind a c2).
Proof. move=> n cfg s c1 c2 e timeout k r log /made_honest H; exact: (refuted_given H). Qed.
(** rounding: operations that cannot be changed keep the values bound to their parameters, in the others exactly the values below the
    tolerance become 0 *)
Theorem C70_rounding : forall (tol : QArith_base.Q) a (c : pcirc) i o, List.nth_error (q_ops c) i = Some o ->
  exists vs, List.nth_error (q_ops (bind_rounded tol a c)) i = Some (o_build o vs) /\
    (o_mutable o = false -> vs = values_of a o) /\
    (o_mutable o = true -> List.Forall2 (fun v x => (Qlt (Qabs x) tol -> v = QArith_base.Qmake Z0 xH) /\ (Qle tol (Qabs x) -> v = x)) vs (values_of a o)).
Proof.
move=> tol a c i o E; exists (rounded tol a o); split; first by rewrite /= List.nth_error_map E.
rewrite /rounded; case: (o_mutable o); split=> // _.
elim: (values_of a o) => [|x l IH] /=; first exact: List.Forall2_nil.
apply: List.Forall2_cons => //; rewrite /round0; case B: (Qle_bool _ _); split=> // H.
  by case: (Qlt_not_le _ _ H); apply/Qle_bool_iff.
by move: H => /Qle_bool_iff; rewrite B.
Qed.
(** rounding changes nothing if the pseudo-inverse solves the linear system whenever it has a solution, the parameters can be chosen such
    that the gate parameters vanish and such that they take the drawn phases, and neither the phases nor the numbers in the circuit are below
    the tolerance without being zero *)
Theorem C70_rounding_harmless : forall (s : sampling) (c1 c2 : pcirc) k,
  (forall M b, (exists x, solves M b x) -> solves M b (s_pinv s M b)) -> List.Forall (affine_below (s_p s)) (symb_exprs c1 c2) ->
  (exists a, List.Forall (fun x => Qeq (x_value x a) 0) (symb_exprs c1 c2)) ->
  (forall i, (i < k)%N -> exists a, List.Forall2 (fun x v => Qeq (x_value x a) v) (symb_exprs c1 c2) (s_drawn s i)) ->
  (forall i v, (i < k)%N -> List.In v (s_drawn s i) -> Qlt (Qabs v) (s_tol s) -> Qeq v 0) ->
  (forall o y, List.In o (q_ops c1) \/ List.In o (q_ops c2) -> List.In (PNum y) (o_params o) -> Qlt (Qabs y) (s_tol s) -> Qeq y 0) ->
  forall a, solved_values s c1 c2 k a -> nothing_to_round (s_tol s) a c1 /\ nothing_to_round (s_tol s) a c2.
Proof.
move=> s c1 c2 k hp ha hz hd hs hn a [->|[i lt ->]].
  apply: (@phases_survive C _ _ c1 c2 (List.map (fun _ => QArith_base.Qmake Z0 xH) (symb_exprs c1 c2))) => //.
    have : List.Forall (fun x => Qeq (x_value x (zero_values (s_pinv s) (s_p s) c1 c2)) 0) (symb_exprs c1 c2).
      exact: (PropPyParam.C46_zero_instantiation (s_p s) (symb_exprs c1 c2) (s_pinv s) hp ha hz).
    move: (zero_values _ _ _ _) => z.
    elim: (symb_exprs c1 c2) => [|x xs IH] F /=; first exact: List.Forall2_nil.
    by apply: List.Forall2_cons; [exact: (List.Forall_inv F)|exact: IH (List.Forall_inv_tail F)].
  by move=> v /in_map_iff [_ [<- _]].
apply: (@phases_survive C _ _ c1 c2 (s_drawn s i)) => //; last by move=> v; exact: hs.
exact: (@solved_phases C) hp ha (hd i lt).
Qed.

(** equivalence found by instantiation: the circuits agree, up to a global phase, at the values drawn for the last check *)
Theorem C70_equivalent_sampled : forall n cfg (s : sampling) (c1 c2 : pcirc) (e : penv) timeout k r log,
  checks_made n cfg s c1 c2 e -> check_parameterized e timeout k = (r, log) -> log <> nil -> r_eq r = Equivalent \/ r_eq r = EquivalentUpToGlobalPhase ->
  exists2 w, `|w| = 1 & agree n w (bind (s_rnd s) c1) (bind (s_rnd s) c2).
Proof. move=> n cfg s c1 c2 e timeout k r log /made_honest H; exact: (accepted H). Qed.

(** equivalence found by the symbolic check: a manager is constructed for the parameterised circuits, all checkers but the ZX checker are
    disabled (parameterized.py:32-42), and the run accepts. Then the circuits as given agree for all values of the parameters, up to a global
    phase that may depend on the values, exactly if the answer is 'equivalent' *)
Theorem C70_symbolic_equivalence : forall actsOn (apply : pass -> pcirc -> pcirc) isEmpty isDynamic varfree nd cfg n m (c1 c2 c1' c2' : pcirc) s
    (Stim Gen : Type) (en : env Stim Gen) fuel pf ma ma' e timeout k r,
  good_for_all_values n c1 -> good_for_all_values n c2 -> same_qubits actsOn c1 -> same_qubits actsOn c2 -> varfree c1 && varfree c2 = false ->
  construct actsOn apply isEmpty isDynamic varfree nd cfg c1 c2 = PVal (c1', c2', s) -> maxn (q_n c1) (q_n c2) = n.+1 -> q_n c1' = m.+1 ->
  reads_all m c1' -> reads_all m c2' -> (forall i : 'I_m.+1, ~~ (q_gar c1' i && q_gar c2' i)) ->
  zx_describes_symbolically m c1' c2' en -> e_empty en = false -> e_varfree en = false -> m_cfg ma = setZXChecker true (disableAllCheckers (constructed cfg s)) ->
  SeqFlow.run fuel pf en ma = Returned ma' -> r_eq (zx e) = SeqFlow.r_eq (m_res ma') ->
  check_parameterized e timeout k = (r, nil) -> consideredEquivalent (r_eq r) = true ->
  forall a, exists w, [/\ `|w| = 1, agree n w (bind a c1) (bind a c2) & r_eq r = Equivalent -> w = 1].
Proof. exact: (@symbolic_given C). Qed.

(** equivalence found by instantiation need not hold for other values: a gate that is the identity except at the value 1 against the
    identity, with all drawn values 0 *)
Theorem C70_sampled_only_refuted : ~ (forall n cfg (s : sampling) (c1 c2 : pcirc) (e : penv) timeout k r log,
  checks_made n cfg s c1 c2 e -> check_parameterized e timeout k = (r, log) -> r_eq r = Equivalent ->
  forall a, exists w, agree n w (bind a c1) (bind a c2)).
Proof.
move=> H; have [w A] := H 0%N construct_cfg _ _ _ _ (QArith_base.Qmake Z0 xH) 1%N _ _ (spike_made C) erefl erefl (fun _ => Qmake 1 1).
have [V1 [V2 [R1 R2 D]]] := spike_differ C; have [W1 [W2 [/one_qubit_V E1 /one_qubit_V E2 A']]] := A.
move: R1 R2 => /one_qubit_V F1 /one_qubit_V F2; apply: (D w); by rewrite F1 F2 -E1 -E2.
Qed.
(** 'not equivalent' can be wrong if rounding changes something: with the tolerance 1, two rotations by 1/2 against one by 1 - the circuits agree
    for all values *)
Theorem C70_rounding_refuted : ~ (forall n cfg (s : sampling) (c1 c2 : pcirc) (e : penv) timeout k r log,
  checks_made n cfg s c1 c2 e -> check_parameterized e timeout k = (r, log) -> r_eq r = NotEquivalent -> exists a, ~ agree n 1 (bind a c1) (bind a c2)).
Proof.
move=> H; have [a N] := H 0%N construct_cfg _ _ _ _ (QArith_base.Qmake Z0 xH) 1%N _ _ (half_made C) erefl erefl.
by apply: N; exact: half_agree.
Qed.

(** ** the hypotheses are met *)
(** a gate that is H at the value 0 and a phase gate elsewhere, against a phase gate; the instantiations are checked by sequential runs *)
Example C70_hypotheses_met : let s := sampling0 (Qmake 1 1000) in let e := env0 NotEquivalent in
  checks_made 0 construct_cfg s (tn1 C) (tn2 C) e /\ (depends_on_numbers (tn1 C) /\ depends_on_numbers (tn2 C)) /\
  (forall a, solved_values s (tn1 C) (tn2 C) 1 a -> nothing_to_round (s_tol s) a (tn1 C) /\ nothing_to_round (s_tol s) a (tn2 C)) /\
  r_eq (check_parameterized e (QArith_base.Qmake Z0 xH) 1).1 = NotEquivalent.
Proof. by split; [exact: turn_made|split; [exact: turn_depends|split=> //; exact: turn_rounds]]. Qed.
(** a parameterised and a fixed phase gate in either order: accepted by the symbolic check *)
Example C70_symbolic_hypotheses_met : let nothing := fun (_ : pass) (c : pcirc) => c in let no := fun _ : pcirc => false in
  let en := demo_sym ZEquivalent true None in
  [/\ good_for_all_values 0 (ph1 C), good_for_all_values 0 (ph2 C), same_qubits (@seen C) (ph1 C) & same_qubits (@seen C) (ph2 C)] /\
  exists c1' c2' s ma', [/\ construct (@seen C) nothing no no no true construct_cfg (ph1 C) (ph2 C) = PVal (c1', c2', s), q_n c1' = 1%N, reads_all 0 c1', reads_all 0 c2' &
    (forall i : 'I_1, ~~ (q_gar c1' i && q_gar c2' i))] /\
    [/\ zx_describes_symbolically 0 c1' c2' en,
      SeqFlow.run 20 no_par en (fresh (setZXChecker true (disableAllCheckers (constructed construct_cfg s))) 0%num (QArith_base.Qmake Z0 xH)) = Returned ma',
      SeqFlow.r_eq (m_res ma') = Equivalent &
      check_parameterized (mkPEnv (result0 Equivalent) q0 (result0 NoInformation) (fun _ => q0) (fun _ => result0 NoInformation) (result0 NoInformation)) q0 1 = (result0 Equivalent, nil)].
Proof.
move=> nothing no en; have [G1 G2] := ph_good C; have [S1 S2] := ph_qubits C; have [F1 F2] := ph_reads C.
split; first by split.
have [a1 [g1 [a2 [g2 [s [EC NG]]]]]] : exists a1 g1 a2 g2 s,
    construct (@seen C) nothing no no no true construct_cfg (ph1 C) (ph2 C) = PVal (marked (ph1 C) a1 g1, marked (ph2 C) a2 g2, s) /\ forall i, ~~ (g1 i && g2 i).
  by eexists _, _, _, _, _; split; [vm_compute; reflexivity|case].
exists (marked (ph1 C) a1 g1), (marked (ph2 C) a2 g2), s; eexists; split; first by split.
by split; [exact: ph_describes|vm_compute; reflexivity| |].
Qed.
End P.
Print Assumptions C70_checks_honest.
Print Assumptions C70_not_equivalent_sampled.
Print Assumptions C70_rounding.
Print Assumptions C70_not_equivalent.
Print Assumptions C70_rounding_harmless.
Print Assumptions C70_equivalent_sampled.
Print Assumptions C70_symbolic_equivalence.
Print Assumptions C70_sampled_only_refuted.
Print Assumptions C70_rounding_refuted.
