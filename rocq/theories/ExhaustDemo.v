(** Proofs for the counterexample and the hypotheses of C88. *)
From Coq Require Import BinNums NArith Arith List Lia.
From mathcomp Require Import all_ssreflect all_fingroup all_algebra.
From Verif Require Import Criterion Config SeqFlow SeqSpec ParFlow ParSpec SeqDemo ParDemo StateGen StateGenSpec StateGenProofs2 Perm PermSpec Prep PrepSpec Passes Construct Schemes DDCheck DDSpec Qubits QubitsProofs DDSem
  DDSemProofs2 DDSemProofs5 DDMain DDFlow DDFlowProofs DDDemo DDDemoProofs3 VerdictSpec PrepSem GateProofs Stim StimSpec StimProofs StimSem StimSemProofs StimDemoProofs PropStim ConstructProofs2 PropPrepSem PrepSemProofs2
  ParamDemo ParamDemo2 EndToEndProofs ExhaustSpec ExhaustProofs ExhaustSem ExhaustSemProofs.
Set Implicit Arguments.
Unset Strict Implicit.
Unset Printing Implicit Defensive.
Import GRing.Theory Num.Theory.
Local Open Scope ring_scope.

Section D.
Variable C : numClosedFieldType.
Local Notation Lg := [finType of 'I_1].
Local Notation c1 := (one_qubit [:: Pg (-1 : C)]).
Local Notation c2 := (one_qubit [:: Pg (1 : C)]).
Local Notation p1 := (as_circuit 0 c1).
Local Notation p2 := (as_circuit 0 c2).

Lemma one_circuit (f : C) : `|f| = 1 -> wf_circuit (as_circuit 0 (one_qubit [:: Pg f])) /\ unitary_circuit (as_circuit 0 (one_qubit [:: Pg f])).
Proof.
move=> F; have [W a _ _ U] : good_circuit 0 (one_qubit [:: Pg f]) by apply: one_good => o [<-|[]]; exact: Pg_gate0.
by split=> //; apply: ok_wf => //; exact: wf_ok.
Qed.
Lemma nm1 : `|-1 : C| = 1. Proof. by rewrite normrN normr1. Qed.
Lemma V_of (f : C) V : realises (as_circuit 0 (one_qubit [:: Pg f])) V -> V = diag f.
Proof. by move/one_qubit_V ->; rewrite sem_single Pg_sem. Qed.
Lemma diag_diagonal (f : C) : diagonal (diag f).
Proof. by move=> x y /negbTE N; rewrite entry_mx N. Qed.
Lemma z_facts : [/\ wf_circuit p1, wf_circuit p2, unitary_circuit p1 & unitary_circuit p2] /\ [/\ q_n c1 = 1%N, q_n c2 = 1%N & primary c1 = 1%N] /\
  (forall V1 V2 : mat C Lg, realises p1 V1 -> realises p2 V2 -> forall w, V1 <> w *: V2).
Proof.
have [w1 u1] := one_circuit nm1; have [w2 u2] := one_circuit (@normr1 C).
split=> //; split=> // V1 V2 /V_of -> /V_of ->; apply: diag_differ.
by rewrite -subr_eq0 -opprD oppr_eq0 -mulr2n pnatr_eq0.
Qed.
Lemma z_not_seen : [/\ wf_circuit p1, wf_circuit p2, unitary_circuit p1 & unitary_circuit p2] /\ [/\ q_n c1 = 1%N, q_n c2 = 1%N & primary c1 = 1%N] /\
  (forall V1 V2 : mat C Lg, realises p1 V1 -> realises p2 V2 -> forall w, V1 <> w *: V2) /\
  forall (q : package C Lg nat_eqType) (s : schemes) (zero : nat) (A1 A2 : {set Lg}) (eps : C),
  @same_node_test C [lmodType C of vec C Lg] (q_nodeV q) -> good_schemes q p1 p2 s -> 0 < eps ->
  forall (MT : Type) (word : MT -> N * MT) (unif : N -> MT -> N * MT) (e : env stimulus (gen MT)) (clifford : stab -> vec C Lg), fair unif -> in_range unif ->
  stimuli_of word unif c1 c2 ComputationalBasis e -> describes q s zero p1 p2 A1 A2 eps (ket clifford) e ->
  forall fuel pf ma, g_used (m_gen ma) = nil ->
  choose_flow e (m_cfg ma) = FSequential -> never_fires e (m_cfg ma) -> no_exceptions e (m_cfg ma) -> only_simulations (m_cfg ma) ->
  maxSims (sim (m_cfg ma)) = 2%num -> r_performed (m_res ma) = 0%num -> N.lt 2%num (N.of_nat fuel) ->
  exists ma', SeqFlow.run fuel pf e ma = Returned ma' /\ r_eq (m_res ma') = ProbablyEquivalent.
Proof.
have [F [Q D]] := z_facts; split=> //; split=> //; split=> //; have [w1 w2 u1 u2] := F.
move=> q s zero A1 A2 eps hn hs e0 MT word unif e cl FA IR st hd fuel pf ma g0 h1 h2 h3 h4 h5 h6 h7.
have [V1 [V2 [[R1 R2 _ _] H]]] := exhaustive zero w1 w2 u1 u2.
have [|ma' [Rm [X _ _]]] := H q s A1 A2 eps hn hs e0 MT word unif e cl FA IR st hd fuel pf ma _ g0 h1 h2 h3 h4 h5 h6 h7; first by apply/leP.
exists ma'; split=> //; apply/X => l B; right.
rewrite (V_of R1) (V_of R2) !diag_ket; try exact: diag_diagonal.
set x := ket cl (SBits l); rewrite inner_scalel inner_scaler ket_unit mulr1 normrM norm_conjC.
have N f : `|f : C| = 1 -> `|entry (diag f) (bits 1 l) (bits 1 l)| = 1 by move=> nf; rewrite entry_mx eqxx; case: ifP => _ //; exact: normr1.
by rewrite !N ?nm1 ?normr1 // mul1r expr1n subrr normr0.
Qed.

Lemma z_schemes : good_schemes (demo_package C Lg nat_eqType) p1 p2 (Schemes SOneToOne SOneToOne SOneToOne).
Proof.
split; split=> //; split; first exact: demo_equals_exact.
apply: elided_placement.
- by move=> o /= [<-|[]].
- by move=> o /= [<-|[]].
- by move=> o k _ _.
Qed.
Lemma exhaust_example : let q := demo_package C Lg nat_eqType in let s := Schemes SOneToOne SOneToOne SOneToOne in
  let cfg := demo_cfg false true false false 2 (QArith_base.Qmake Z0 xH) false in
  [/\ @same_node_test C [lmodType C of vec C Lg] (q_nodeV q), good_schemes q p1 p2 s, only_simulations cfg, (primary c1 <= 63)%coq_nat & maxSims (sim cfg) = (2 ^ N.of_nat (primary c1))%num] /\
  exists (cl : stab -> vec C Lg) (e : env stimulus (gen N)),
    [/\ stimuli_of cword cunif c1 c2 ComputationalBasis e, describes q s 0%N p1 p2 set0 set0 1 (ket cl) e &
        [/\ choose_flow e cfg = FSequential, never_fires e cfg & no_exceptions e cfg]].
Proof.
move=> q s cfg; have [[w1 w2 u1 u2] _] := z_facts; have L : (primary c1 <= 63)%coq_nat by apply/leP.
split; first by split=> //; [move=> e f; exact: demo_nodeP|exact: z_schemes].
have [cl hc] := clifford_ex C 0.
have [ch [a [k [sm D]]]] := @describes_ex C Lg nat_eqType 0%N _ _ w1 w2 u1 q s set0 set0 1 z_schemes _ _ (ket cl) (generator_env c1 c2).
exists cl, (with_verdicts (generator_env c1 c2) ch a k sm); split=> //; first exact: generator_env_of.
Qed.
Lemma parallel_example : let e := generator_env c1 c2 in let cfg := pdemo_cfg 2 false true false false 2 (QArith_base.Qmake Z0 xH) true in
  [/\ choose_flow e cfg = FParallel, only_simulations cfg, maxSims (sim cfg) = (2 ^ N.of_nat (primary c1))%num & hasTimeout cfg = false] /\
  exists x, par_returned e cfg (mkGen 1%num nil) (QArith_base.Qmake Z0 xH) x /\ r_eq (p_res x) = ProbablyEquivalent.
Proof.
move=> e cfg; split; first by split.
have [acts [x [R [M E]]]] : exists acts x, prun e acts (par_init e cfg (mkGen 1%num nil) (QArith_base.Qmake Z0 xH)) = Some x /\ p_main x = MReturned /\ r_eq (p_res x) = ProbablyEquivalent.
  exists (List.app (mains 2) (List.app (works 0 5) (List.app (works 1 5) (mains 7)))); eexists; split; [vm_compute; reflexivity|].
  by split.
by exists x; split=> //; split=> //; exists acts.
Qed.
End D.
