(** C88: what simulating computational basis states, up to all of them, says about the circuits.
    Vocabulary: ExhaustSpec.v, ExhaustSem.v, DDFlow.v ([describes]), StimSpec.v ([stimuli_of]).  Model: SeqFlow.v, StateGen.v, DDCheck.v. *)
From Coq Require Import BinNums NArith Arith List Lia.
From mathcomp Require Import all_ssreflect all_fingroup all_algebra.
From Verif Require Import Criterion Config SeqFlow SeqSpec ParFlow ParSpec SeqDemo ParDemo StateGen StateGenSpec StateGenProofs2 Perm PermSpec Prep PrepSpec Passes Construct Schemes DDCheck DDSpec Qubits QubitsProofs DDSem
  DDSemProofs2 DDMain DDFlow DDFlowProofs DDDemo DDDemoProofs3 VerdictSpec PrepSem GateProofs Stim StimSpec StimProofs StimSem StimSemProofs StimDemoProofs PropStim PassesSpec ConstructProofs2
  ParamDemo ParamDemo2 EndToEndProofs ExhaustSpec ExhaustProofs ExhaustSem ExhaustSemProofs ExhaustGivenProofs ExhaustDemo.
Set Implicit Arguments.
Unset Strict Implicit.
Unset Printing Implicit Defensive.
Import GRing.Theory Num.Theory.
Local Open Scope ring_scope.

(** with simulations of basis states only, and at least as many as there are basis states of the first circuit's primary qubits,
    the constructor leaves exactly that many *)
Theorem C88_constructor_asks_for_all : forall (A : Type) (actsOn : A -> nat -> bool) (apply : pass -> circ A -> circ A) isEmpty isDynamic varfree nd cfg (c1 c2 c1' c2' : circ A) (s : settings),
  construct actsOn apply isEmpty isDynamic varfree nd cfg c1 c2 = PVal (c1', c2', s) ->
  only_simulations cfg -> stateTyp (sim cfg) = ComputationalBasis -> N.le (2 ^ N.of_nat (primary c1'))%num (maxSims (sim cfg)) ->
  [/\ (primary c1' <= 63)%coq_nat, only_simulations (constructed cfg s) & maxSims (sim (constructed cfg s)) = (2 ^ N.of_nat (primary c1'))%num].
Proof. exact: constructor_asks. Qed.
Print Assumptions C88_constructor_asks_for_all.

Section P.
Variable C : numClosedFieldType.
Local Notation gate := (gate C nat_eqType).
Local Notation op := (op nat gate).
Local Notation circ := (circ op).
Local Notation mat n := (mat C [finType of 'I_n.+1]).
Local Notation vec n := (vec C [finType of 'I_n.+1]).

(** then an uninterrupted sequential run answers 'probably equivalent' exactly if the circuits have close results on each of these basis
    states, and 'not equivalent' exactly if they have not on some. Nothing is assumed on when two decision diagrams have the same weight *)
Theorem C88_exhaustive_run : forall m (c1 c2 : circ) (zero : nat), let p1 := as_circuit m c1 in let p2 := as_circuit m c2 in
  wf_circuit p1 -> wf_circuit p2 -> unitary_circuit p1 -> unitary_circuit p2 ->
  exists V1 V2 : mat m, [/\ realises p1 V1, realises p2 V2, unitary V1 & unitary V2] /\
  forall (q : package C [finType of 'I_m.+1] nat_eqType) (s : schemes) (A1 A2 : {set 'I_m.+1}) (eps : C),
  @same_node_test C [lmodType C of vec m] (q_nodeV q) -> good_schemes q p1 p2 s -> 0 < eps ->
  forall (MT : Type) (word : MT -> N * MT) (unif : N -> MT -> N * MT) (e : env stimulus (gen MT)) (clifford : stab -> vec m), fair unif -> in_range unif ->
  stimuli_of word unif c1 c2 ComputationalBasis e -> describes q s zero p1 p2 A1 A2 eps (ket clifford) e ->
  forall fuel pf ma, let n := Nat.max (q_n c1) (q_n c2) in let k := primary c1 in (k <= 63)%coq_nat -> g_used (m_gen ma) = nil ->
  choose_flow e (m_cfg ma) = FSequential -> never_fires e (m_cfg ma) -> no_exceptions e (m_cfg ma) -> only_simulations (m_cfg ma) ->
  maxSims (sim (m_cfg ma)) = (2 ^ N.of_nat k)%num -> r_performed (m_res ma) = 0%num -> N.lt (2 ^ N.of_nat k)%num (N.of_nat fuel) ->
  exists ma', SeqFlow.run fuel pf e ma = Returned ma' /\
    [/\ r_eq (m_res ma') = ProbablyEquivalent <-> forall l, basis_input n k l -> close eps (V1 *m ket clifford (SBits l)) (V2 *m ket clifford (SBits l)),
        r_eq (m_res ma') = NotEquivalent <-> exists l, basis_input n k l /\ ~ close eps (V1 *m ket clifford (SBits l)) (V2 *m ket clifford (SBits l)) &
        r_eq (m_res ma') = ProbablyEquivalent \/ r_eq (m_res ma') = NotEquivalent].
Proof. by move=> m c1 c2 zero p1 p2; exact: exhaustive. Qed.
(** the same for a parallel run without timeout, in every schedule in which it returns *)
Theorem C88_exhaustive_parallel_run : forall m (c1 c2 : circ) (zero : nat), let p1 := as_circuit m c1 in let p2 := as_circuit m c2 in
  wf_circuit p1 -> wf_circuit p2 -> unitary_circuit p1 -> unitary_circuit p2 ->
  exists V1 V2 : mat m, [/\ realises p1 V1, realises p2 V2, unitary V1 & unitary V2] /\
  forall (q : package C [finType of 'I_m.+1] nat_eqType) (s : schemes) (A1 A2 : {set 'I_m.+1}) (eps : C),
  @same_node_test C [lmodType C of vec m] (q_nodeV q) -> good_schemes q p1 p2 s -> 0 < eps ->
  forall (MT : Type) (word : MT -> N * MT) (unif : N -> MT -> N * MT) (e : env stimulus (gen MT)) (clifford : stab -> vec m), in_range unif ->
  stimuli_of word unif c1 c2 ComputationalBasis e -> describes q s zero p1 p2 A1 A2 eps (ket clifford) e ->
  forall c g pp x, let n := Nat.max (q_n c1) (q_n c2) in let k := primary c1 in (k <= 63)%coq_nat -> g_used g = nil -> only_simulations c ->
  maxSims (sim c) = (2 ^ N.of_nat k)%num -> hasTimeout c = false -> par_returned e c g pp x ->
    [/\ r_eq (p_res x) = ProbablyEquivalent <-> forall l, basis_input n k l -> close eps (V1 *m ket clifford (SBits l)) (V2 *m ket clifford (SBits l)),
        r_eq (p_res x) = NotEquivalent <-> exists l, basis_input n k l /\ ~ close eps (V1 *m ket clifford (SBits l)) (V2 *m ket clifford (SBits l)) &
        r_eq (p_res x) = ProbablyEquivalent \/ r_eq (p_res x) = NotEquivalent].
Proof. by move=> m c1 c2 zero p1 p2; exact: exhaustive_par. Qed.
(** circuits that map basis states to basis states (X, CX, Toffoli, SWAP): such a run decides whether they agree on all inputs with zeros
    from the first circuit's number of primary qubits on, whatever the fidelity threshold up to 1 *)
Theorem C88_classical_circuits_decided : forall m (c1 c2 : circ) (zero : nat), let p1 := as_circuit m c1 in let p2 := as_circuit m c2 in
  wf_circuit p1 -> wf_circuit p2 -> unitary_circuit p1 -> unitary_circuit p2 -> Nat.max (q_n c1) (q_n c2) = m.+1 ->
  exists V1 V2 : mat m, [/\ realises p1 V1, realises p2 V2, unitary V1 & unitary V2] /\
  forall (q : package C [finType of 'I_m.+1] nat_eqType) (s : schemes) (A1 A2 : {set 'I_m.+1}) (eps : C),
  @same_node_test C [lmodType C of vec m] (q_nodeV q) -> good_schemes q p1 p2 s -> 0 < eps -> eps <= 1 -> classical V1 -> classical V2 ->
  forall (MT : Type) (word : MT -> N * MT) (unif : N -> MT -> N * MT) (e : env stimulus (gen MT)) (clifford : stab -> vec m), fair unif -> in_range unif ->
  stimuli_of word unif c1 c2 ComputationalBasis e -> describes q s zero p1 p2 A1 A2 eps (ket clifford) e ->
  forall fuel pf ma, let k := primary c1 in (k <= 63)%coq_nat -> g_used (m_gen ma) = nil ->
  choose_flow e (m_cfg ma) = FSequential -> never_fires e (m_cfg ma) -> no_exceptions e (m_cfg ma) -> only_simulations (m_cfg ma) ->
  maxSims (sim (m_cfg ma)) = (2 ^ N.of_nat k)%num -> r_performed (m_res ma) = 0%num -> N.lt (2 ^ N.of_nat k)%num (N.of_nat fuel) ->
  let Z := [set q : 'I_m.+1 | (k <= q)%N] in
  exists ma', SeqFlow.run fuel pf e ma = Returned ma' /\
    [/\ r_eq (m_res ma') = ProbablyEquivalent <-> V1 *m proj0 C Z = V2 *m proj0 C Z &
        r_eq (m_res ma') = NotEquivalent <-> V1 *m proj0 C Z <> V2 *m proj0 C Z].
Proof. by move=> m c1 c2 zero p1 p2; exact: classical_decided. Qed.
(** ... and from the circuits as they were given: after the constructor, a run -- sequential or parallel -- that was asked for at least as
    many simulations of basis states as there are, of circuits that act classically, decides whether the given circuits agree on the
    inputs with all common ancillaries zero *)
Theorem C88_classical_given_circuits : forall (apply : pass -> circ -> circ) isEmpty isDynamic varfree nd cfg n m (c1 c2 c1' c2' : circ) (s : settings),
  good_circuit n c1 -> good_circuit n c2 -> ancillaries_agree c1 c2 -> isDynamic c1 = false -> isDynamic c2 = false ->
  (forall p, List.In p (schedule (opts cfg) false) -> keeps_meaning n (apply p)) ->
  only_simulations cfg -> stateTyp (sim cfg) = ComputationalBasis -> N.le (2 ^ N.of_nat (primary c1'))%num (maxSims (sim cfg)) ->
  construct (@on_qubits C) apply isEmpty isDynamic varfree nd cfg c1 c2 = PVal (c1', c2', s) -> maxn (q_n c1) (q_n c2) = n.+1 -> q_n c1' = m.+1 ->
  let p1 := as_circuit m c1' in let p2 := as_circuit m c2' in let A := common_ancillaries n c1 c2 in let c := constructed cfg s in
  forall zero : nat, exists V1 V2 : mat n, [/\ realises (as_circuit n c1) V1, realises (as_circuit n c2) V2 &
  forall (q : package C [finType of 'I_m.+1] nat_eqType) (sch : schemes) (A1 A2 : {set 'I_m.+1}) (eps : C), @same_node_test C [lmodType C of vec m] (q_nodeV q) ->
    good_schemes q p1 p2 sch -> 0 < eps -> eps <= 1 -> classical V1 -> classical V2 ->
  forall (MT : Type) (word : MT -> N * MT) unif (e : env stimulus (gen MT)) (clifford : stab -> vec m), fair unif -> in_range unif ->
    stimuli_of word unif c1' c2' ComputationalBasis e -> describes q sch zero p1 p2 A1 A2 eps (ket clifford) e -> checkers_constructible e c ->
    (forall fuel pf ma, plain_sequential_run fuel e c ma -> g_used (m_gen ma) = nil -> exists ma', SeqFlow.run fuel pf e ma = Returned ma' /\
      [/\ r_eq (m_res ma') = ProbablyEquivalent <-> V1 *m proj0 C A = V2 *m proj0 C A & r_eq (m_res ma') = NotEquivalent <-> V1 *m proj0 C A <> V2 *m proj0 C A]) /\
    (forall g pp x, hasTimeout c = false -> g_used g = nil -> par_returned e c g pp x ->
      [/\ r_eq (p_res x) = ProbablyEquivalent <-> V1 *m proj0 C A = V2 *m proj0 C A & r_eq (p_res x) = NotEquivalent <-> V1 *m proj0 C A <> V2 *m proj0 C A])].
Proof. exact: (@given_classical C). Qed.

(** circuits of gates that map basis states to multiples of basis states (X, CX, Toffoli, SWAP, Z, S, T, phase, RZ): such a run, sequential or
    parallel, decides whether they agree up to phases, i.e. up to an operator that is diagonal in the computational basis *)
Theorem C88_decides_up_to_phases : forall m (c1 c2 : circ) (zero : nat), let p1 := as_circuit m c1 in let p2 := as_circuit m c2 in
  let k := primary c1 in let P0 := proj0 C [set q : 'I_m.+1 | (k <= q)%N] in
  wf_circuit p1 -> wf_circuit p2 -> unitary_circuit p1 -> unitary_circuit p2 -> Nat.max (q_n c1) (q_n c2) = m.+1 ->
  exists V1 V2 : mat m, [/\ realises p1 V1, realises p2 V2, unitary V1 & unitary V2] /\
  forall (q : package C [finType of 'I_m.+1] nat_eqType) (s : schemes) (A1 A2 : {set 'I_m.+1}) (eps : C), @same_node_test C [lmodType C of vec m] (q_nodeV q) -> good_schemes q p1 p2 s -> 0 < eps -> eps <= 1 ->
  monomial V1 -> monomial V2 ->
  forall (MT : Type) (word : MT -> N * MT) (unif : N -> MT -> N * MT) (e : env stimulus (gen MT)) (clifford : stab -> vec m), fair unif -> in_range unif ->
  stimuli_of word unif c1 c2 ComputationalBasis e -> describes q s zero p1 p2 A1 A2 eps (ket clifford) e -> (k <= 63)%coq_nat ->
  let phases := exists D : mat m, diagonal D /\ V1 *m P0 = V2 *m D *m P0 in
  (forall fuel pf ma, g_used (m_gen ma) = nil ->
    choose_flow e (m_cfg ma) = FSequential -> never_fires e (m_cfg ma) -> no_exceptions e (m_cfg ma) -> only_simulations (m_cfg ma) ->
    maxSims (sim (m_cfg ma)) = (2 ^ N.of_nat k)%num -> r_performed (m_res ma) = 0%num -> N.lt (2 ^ N.of_nat k)%num (N.of_nat fuel) ->
    exists ma', SeqFlow.run fuel pf e ma = Returned ma' /\
      [/\ r_eq (m_res ma') = ProbablyEquivalent <-> phases & r_eq (m_res ma') = NotEquivalent <-> ~ phases]) /\
  (forall c g pp x, g_used g = nil -> only_simulations c ->
    maxSims (sim c) = (2 ^ N.of_nat k)%num -> hasTimeout c = false -> par_returned e c g pp x ->
    [/\ r_eq (p_res x) = ProbablyEquivalent <-> phases & r_eq (p_res x) = NotEquivalent <-> ~ phases]).
Proof. by move=> m c1 c2 zero p1 p2 k P0 w1 w2 u1 u2 En; exact: mono_decided. Qed.

(** ... and the circuits as they were given: decided up to phases of the basis states with all common ancillaries zero *)
Theorem C88_given_circuits_up_to_phases : forall (apply : pass -> circ -> circ) isEmpty isDynamic varfree nd cfg n m (c1 c2 c1' c2' : circ) (s : settings),
  good_circuit n c1 -> good_circuit n c2 -> ancillaries_agree c1 c2 -> isDynamic c1 = false -> isDynamic c2 = false ->
  (forall p, List.In p (schedule (opts cfg) false) -> keeps_meaning n (apply p)) ->
  only_simulations cfg -> stateTyp (sim cfg) = ComputationalBasis -> N.le (2 ^ N.of_nat (primary c1'))%num (maxSims (sim cfg)) ->
  construct (@on_qubits C) apply isEmpty isDynamic varfree nd cfg c1 c2 = PVal (c1', c2', s) -> maxn (q_n c1) (q_n c2) = n.+1 -> q_n c1' = m.+1 ->
  let p1 := as_circuit m c1' in let p2 := as_circuit m c2' in let A := common_ancillaries n c1 c2 in let c := constructed cfg s in
  forall zero : nat, exists V1 V2 : mat n, [/\ realises (as_circuit n c1) V1, realises (as_circuit n c2) V2 &
  forall (q : package C [finType of 'I_m.+1] nat_eqType) (sch : schemes) (A1 A2 : {set 'I_m.+1}) (eps : C), @same_node_test C [lmodType C of vec m] (q_nodeV q) ->
    good_schemes q p1 p2 sch -> 0 < eps -> eps <= 1 -> monomial V1 -> monomial V2 ->
  forall (MT : Type) (word : MT -> N * MT) unif (e : env stimulus (gen MT)) (clifford : stab -> vec m), fair unif -> in_range unif ->
    stimuli_of word unif c1' c2' ComputationalBasis e -> describes q sch zero p1 p2 A1 A2 eps (ket clifford) e -> checkers_constructible e c ->
    let phases := exists D : mat n, diagonal D /\ V1 *m proj0 C A = V2 *m D *m proj0 C A in
    (forall fuel pf ma, plain_sequential_run fuel e c ma -> g_used (m_gen ma) = nil -> exists ma', SeqFlow.run fuel pf e ma = Returned ma' /\
      [/\ r_eq (m_res ma') = ProbablyEquivalent <-> phases & r_eq (m_res ma') = NotEquivalent <-> ~ phases]) /\
    (forall g pp x, hasTimeout c = false -> g_used g = nil -> par_returned e c g pp x ->
      [/\ r_eq (p_res x) = ProbablyEquivalent <-> phases & r_eq (p_res x) = NotEquivalent <-> ~ phases])].
Proof. exact: (@given_phases C). Qed.

(** phases that depend on the basis state are never seen: if the circuits differ by a diagonal operator on the inputs, no number of
    simulations of basis states refutes *)
Theorem C88_phases_never_seen : forall m (c1 c2 : circ) (zero : nat), let p1 := as_circuit m c1 in let p2 := as_circuit m c2 in
  wf_circuit p1 -> wf_circuit p2 -> unitary_circuit p1 -> unitary_circuit p2 ->
  exists V1 V2 : mat m, [/\ realises p1 V1, realises p2 V2, unitary V1 & unitary V2] /\
  forall (q : package C [finType of 'I_m.+1] nat_eqType) (s : schemes) (A1 A2 : {set 'I_m.+1}) (eps : C) (D : mat m),
  @same_node_test C [lmodType C of vec m] (q_nodeV q) -> good_schemes q p1 p2 s -> 0 < eps -> diagonal D -> V1 = V2 *m D ->
  forall (MT : Type) (word : MT -> N * MT) (unif : N -> MT -> N * MT) (e : env stimulus (gen MT)) (clifford : stab -> vec m),
  stimuli_of word unif c1 c2 ComputationalBasis e -> describes q s zero p1 p2 A1 A2 eps (ket clifford) e ->
  forall fuel pf ma l g', draws e (m_gen ma) l g' -> l <> nil -> N.of_nat (length l) = maxSims (sim (m_cfg ma)) -> (length l < fuel)%coq_nat ->
  choose_flow e (m_cfg ma) = FSequential -> never_fires e (m_cfg ma) -> no_exceptions e (m_cfg ma) -> only_simulations (m_cfg ma) -> r_performed (m_res ma) = 0%num ->
  exists ma', SeqFlow.run fuel pf e ma = Returned ma' /\ r_eq (m_res ma') = ProbablyEquivalent.
Proof. by move=> m c1 c2 zero p1 p2; exact: phases_never_seen. Qed.

(** so simulating all basis states does not decide equivalence: a Z gate against the empty phase gate on one qubit *)
Theorem C88_decides_equivalence_refuted : exists c1 c2 : circ, let p1 := as_circuit 0 c1 in let p2 := as_circuit 0 c2 in
  [/\ wf_circuit p1, wf_circuit p2, unitary_circuit p1 & unitary_circuit p2] /\ [/\ q_n c1 = 1%N, q_n c2 = 1%N & primary c1 = 1%N] /\
  (forall V1 V2 : mat 0, realises p1 V1 -> realises p2 V2 -> forall w, V1 <> w *: V2) /\
  forall (q : package C [finType of 'I_1] nat_eqType) (s : schemes) (zero : nat) (A1 A2 : {set 'I_1}) (eps : C),
  @same_node_test C [lmodType C of vec 0] (q_nodeV q) -> good_schemes q p1 p2 s -> 0 < eps ->
  forall (MT : Type) (word : MT -> N * MT) (unif : N -> MT -> N * MT) (e : env stimulus (gen MT)) (clifford : stab -> vec 0), fair unif -> in_range unif ->
  stimuli_of word unif c1 c2 ComputationalBasis e -> describes q s zero p1 p2 A1 A2 eps (ket clifford) e ->
  forall fuel pf ma, g_used (m_gen ma) = nil ->
  choose_flow e (m_cfg ma) = FSequential -> never_fires e (m_cfg ma) -> no_exceptions e (m_cfg ma) -> only_simulations (m_cfg ma) ->
  maxSims (sim (m_cfg ma)) = 2%num -> r_performed (m_res ma) = 0%num -> N.lt 2%num (N.of_nat fuel) ->
  exists ma', SeqFlow.run fuel pf e ma = Returned ma' /\ r_eq (m_res ma') = ProbablyEquivalent.
Proof. by exists (one_qubit [:: Pg (-1)]), (one_qubit [:: Pg 1]); exact: z_not_seen. Qed.

(** the hypotheses are met: the environment of these circuits around a counter as random source, and two simulations asked for *)
Example C88_hypotheses_met : let c1 := one_qubit [:: Pg (-1 : C)] in let c2 := one_qubit [:: Pg (1 : C)] in
  let p1 := as_circuit 0 c1 in let p2 := as_circuit 0 c2 in
  let q := demo_package C [finType of 'I_1] nat_eqType in let s := Schemes SOneToOne SOneToOne SOneToOne in
  let cfg := demo_cfg false true false false 2 (QArith_base.Qmake Z0 xH) false in
  [/\ @same_node_test C [lmodType C of vec 0] (q_nodeV q), good_schemes q p1 p2 s, only_simulations cfg, (primary c1 <= 63)%coq_nat & maxSims (sim cfg) = (2 ^ N.of_nat (primary c1))%num] /\
  exists (cl : stab -> vec 0) (e : env stimulus (gen N)),
    [/\ stimuli_of cword cunif c1 c2 ComputationalBasis e, describes q s 0%N p1 p2 set0 set0 1 (ket cl) e &
        [/\ choose_flow e cfg = FSequential, never_fires e cfg & no_exceptions e cfg]].
Proof. exact: exhaust_example. Qed.
(** a parallel run of the same kind that returns: two threads, two simulations *)
Example C88_parallel_example : let c1 := one_qubit [:: Pg (-1 : C)] in let c2 := one_qubit [:: Pg (1 : C)] in
  let e := generator_env c1 c2 in let cfg := pdemo_cfg 2 false true false false 2 (QArith_base.Qmake Z0 xH) true in
  [/\ choose_flow e cfg = FParallel, only_simulations cfg, maxSims (sim cfg) = (2 ^ N.of_nat (primary c1))%num & hasTimeout cfg = false] /\
  exists x, par_returned e cfg (mkGen 1%num nil) (QArith_base.Qmake Z0 xH) x /\ r_eq (p_res x) = ProbablyEquivalent.
Proof. exact: parallel_example. Qed.
(** classical operators: the identity and X *)
Example C88_classical_example n : classical (1%:M : mat n) /\ classical (mx (fun x y : basis [finType of 'I_n.+1] => (x == [ffun q => ~~ y q])%:R) : mat n).
Proof.
split; first by exists id => x y; rewrite entry_1.
by exists (fun y => [ffun q => ~~ y q]) => x y; rewrite entry_mx.
Qed.
(** eight simulations asked for, one primary qubit: two are left *)
Example C88_constructor_example : let c := one_qubit [:: Pg (1 : C)] in
  exists s, construct (@on_qubits C) (fun _ c => c) (fun _ => false) (fun _ => false) (fun _ => true) true (demo_cfg false true false false 8 (QArith_base.Qmake Z0 xH) false) c c = PVal (c, c, s) /\
    s_maxSims s = 2%num.
Proof. by eexists; split; [vm_compute; reflexivity|]. Qed.
(** circuits as given, and a configuration, that meet the hypotheses of the theorem on given circuits; the operator is classical *)
Example C88_given_example : let c := one_qubit [:: Pg (1 : C)] in let cfg := demo_cfg false true false false 8 (QArith_base.Qmake Z0 xH) false in
  [/\ good_circuit 0 c, ancillaries_agree c c, forall p, List.In p (schedule (opts cfg) false) -> keeps_meaning 0 ((fun (_ : pass) (c : circ) => c) p) &
      only_simulations cfg /\ stateTyp (sim cfg) = ComputationalBasis] /\
  [/\ N.le (2 ^ N.of_nat (primary c))%num (maxSims (sim cfg)), maxn (q_n c) (q_n c) = 1%N & forall V, realises (as_circuit 0 c) V -> classical V].
Proof.
split; [split|split] => //.
- by apply: one_good => o [<-|[]]; apply: Pg_gate0; exact: normr1.
- move=> V /V_of ->; exists id => x y; rewrite entry_mx; case: eqP => // _; by case: ifP.
Qed.
(** such operators: classical ones, diagonal ones and their products *)
Example C88_monomial_example n (V D : mat n) : classical V -> diagonal D -> [/\ monomial V, monomial D & monomial (V *m D)].
Proof.
move=> [f F] dD; split.
- by exists f => x y /negbTE N; rewrite F N.
- by exists id => x y N; apply: dD.
- exists f => x y N; rewrite entry_mul big1 // => z _; rewrite F; case: eqP => [E|_]; last by rewrite mul0r.
  by rewrite mul1r dD //; apply: contraNneq N => Z; rewrite E Z.
Qed.
End P.
Print Assumptions C88_exhaustive_run.
Print Assumptions C88_exhaustive_parallel_run.
Print Assumptions C88_classical_circuits_decided.
Print Assumptions C88_classical_given_circuits.
Print Assumptions C88_decides_up_to_phases.
Print Assumptions C88_given_circuits_up_to_phases.
Print Assumptions C88_phases_never_seen.
Print Assumptions C88_decides_equivalence_refuted.
