(** C65: the stimuli of the simulation checker and the ancillary qubits. *)
From Coq Require Import BinNums NArith Arith List Lia.
From mathcomp Require Import all_ssreflect all_fingroup all_algebra.
From Verif Require Import Criterion Config SeqFlow SeqSpec StateGen StateGenSpec StateGenProofs2 Perm PermSpec Prep PrepSpec Passes Schemes DDCheck DDSpec Qubits QubitsProofs DDSem
  DDSemProofs2 DDMain DDFlow DDFlowProofs DDDemo DDDemoProofs3 VerdictSpec VerdictProofs ParFlow ParSpec SeqDemo PrepSem PropPrepSem Stim StimSpec StimProofs PrepProofs3 StimSem StimSemProofs StimDemo StimDemoProofs.
Set Implicit Arguments.
Unset Strict Implicit.
Unset Printing Implicit Defensive.
Import GRing.Theory Num.Theory.

(** every stimulus, of any type and from any random source, is |0> from the number of primary qubits of the first circuit on *)
Theorem C65_zero_from_primary : forall (A MT : Type) (word : MT -> N * MT) (unif : N -> MT -> N * MT) nd fuel (c1 c2 : circ A) t g s g',
  setRandomInitialState word unif nd fuel c1 c2 t g = GState s g' -> forall q, (primary c1 <= q)%coq_nat -> zero_on s q.
Proof. by move=> A MT word unif nd fuel c1 c2 t g s g'; exact: stimulus_above. Qed.
Print Assumptions C65_zero_from_primary.
(** where [primary] is the number of the qubits that are not ancillary *)
Theorem C65_primary_counts : forall (A : Type) (c : circ A), data_qubits c (primary c).
Proof. exact: @PrepProofs3.primary_data. Qed.
Print Assumptions C65_primary_counts.
(** so the common ancillaries are |0> in all stimuli iff none of them is among the first qubits, as many as the first circuit has primary ones *)
Theorem C65_common_ancillaries_zero_iff : forall (A : Type) (c1 c2 : circ A) t,
  (forall (MT : Type) (word : MT -> N * MT) unif nd fuel g s g', in_range unif -> setRandomInitialState word unif nd fuel c1 c2 t g = GState s g' ->
     forall q, both_ancillary c1 c2 q -> zero_on s q) <->
  (forall q, both_ancillary c1 c2 q -> (primary c1 <= q)%coq_nat).
Proof.
move=> A c1 c2 t; split=> [H q bq|H MT word unif nd fuel g s g' _ E q /H]; last exact: (@stimulus_above _ _ _ _ _ _ _ _ _ _ _ _ E).
case: (le_lt_dec (primary c1) q) => // lt; exfalso.
have [word [unif [fuel [g [s [g' [ir [E nz]]]]]]]] := not_zero_below c1 c2 t q lt.
by apply: nz; exact: (H unit word unif true fuel g s g' ir E q bq).
Qed.
Print Assumptions C65_common_ancillaries_zero_iff.
(** which is the case if the ancillaries of the first circuit come last, in the circuit as given *)
Theorem C65_ancillaries_last_suffices : forall (A : Type) (actsOn : A -> nat -> bool) nd (c1 c2 c1' c2' : circ A),
  wf_circ c1 -> wf_circ c2 -> prepare actsOn nd c1 c2 = PVal (c1', c2') -> ancillaries_last c1 ->
  forall q, (q < q_n c1')%coq_nat -> (q_anc c1' q = true <-> (primary c1' <= q)%coq_nat).
Proof. move=> A actsOn nd c1 c2 c1' c2' W1 W2 E L; apply: primary_exact; exact: (prepared_last _ _ _ _ _ _ W1 W2 E L). Qed.
Print Assumptions C65_ancillaries_last_suffices.

Local Open Scope ring_scope.
Section P.
Variable C : numClosedFieldType.
Local Notation gate := (gate C nat_eqType).
Local Notation op := (op nat gate).
Local Notation circ := (circ op).
Local Notation mat n := (mat C [finType of 'I_n.+1]).
Local Notation vec n := (vec C [finType of 'I_n.+1]).

Lemma common_top nd m (c1 c2 c1' c2' : circ) : wf_circ c1 -> wf_circ c2 -> prepare (@on_qubits C) nd c1 c2 = PVal (c1', c2') -> ancillaries_last c1 ->
  q_n c1' = m.+1 -> q_n c2' = m.+1 -> forall q : 'I_m.+1, q \in common_ancillaries m c1' c2' -> (primary c1' <= q)%coq_nat.
Proof.
move=> W1 W2 EP L E1 E2 q; rewrite inE E1 E2 minnn leqNgt ltn_ord /= => /andP[a1 _].
by apply/(C65_ancillaries_last_suffices W1 W2 EP L) => //; rewrite E1; apply/ltP.
Qed.
(** then the state vectors of all stimuli that can be drawn are unit vectors with zeros on the common ancillaries *)
Theorem C65_stimuli_fit : forall nd m (c1 c2 c1' c2' : circ) (MT : Type) (word : MT -> N * MT) unif t (e : env stimulus (gen MT)) g (clifford : stab -> vec m),
  wf_circ c1 -> wf_circ c2 -> prepare (@on_qubits C) nd c1 c2 = PVal (c1', c2') -> ancillaries_last c1 -> q_n c1' = m.+1 -> q_n c2' = m.+1 ->
  clifford_states clifford -> stimuli_of word unif c1' c2' t e -> stimuli_fit (common_ancillaries m c1' c2') (ket clifford) e g.
Proof.
move=> nd m c1 c2 c1' c2' MT word unif t e g cl W1 W2 EP L E1 E2 hc hs s ds; apply: ket_fits => // q qA.
exact: (drawn_above _ _ _ _ _ _ _ _ hs ds _ (common_top W1 W2 EP L E1 E2 qA)).
Qed.
(** and an uninterrupted sequential run, with stimuli from the generator, decides whether the circuits as given agree *)
Theorem C65_run_with_generator_decides : forall nd n m (c1 c2 c1' c2' : circ),
  wf_circ c1 -> wf_circ c2 -> acts_inside c1 -> acts_inside c2 -> garbage_unread c1 -> garbage_unread c2 -> ancillaries_last c1 ->
  unitary_circuit (as_circuit n c1) -> unitary_circuit (as_circuit n c2) ->
  prepare (@on_qubits C) nd c1 c2 = PVal (c1', c2') -> maxn (q_n c1) (q_n c2) = n.+1 -> q_n c1' = m.+1 ->
  let p1 := as_circuit m c1' in let p2 := as_circuit m c2' in let A1 := own_ancillaries m c1' in let A2 := own_ancillaries m c2' in
  let A := common_ancillaries n c1 c2 in
  forall zero : nat, exists V1 V2 : mat n, [/\ realises (as_circuit n c1) V1, realises (as_circuit n c2) V2 &
  forall (q : package C [finType of 'I_m.+1] nat_eqType) (s : schemes) (eps : C), exact_package q -> good_schemes q p1 p2 s -> 0 < eps ->
  forall (MT : Type) (word : MT -> N * MT) unif t (e : env stimulus (gen MT)) (clifford : stab -> vec m),
    clifford_states clifford -> stimuli_of word unif c1' c2' t e -> describes q s zero p1 p2 A1 A2 eps (ket clifford) e ->
    forall fuel pf ma l g',
    choose_flow e (m_cfg ma) = FSequential -> never_fires e (m_cfg ma) -> no_exceptions e (m_cfg ma) ->
    runAlternatingChecker (exec (m_cfg ma)) = true /\ (can_handle p1 p2 A1 A2 -> ancillaries_handled p1 p2 (A1 :&: A2)) \/
    runAlternatingChecker (exec (m_cfg ma)) = false /\ runConstructionChecker (exec (m_cfg ma)) = true /\ A1 = A2 ->
    r_performed (m_res ma) = 0%num -> draws e (m_gen ma) l g' -> N.of_nat (length l) = maxSims (sim (m_cfg ma)) ->
    (length l < fuel)%coq_nat -> (runSimulationChecker (exec (m_cfg ma)) = true -> l = nil -> e_ndebug e = true) ->
    exists ma', SeqFlow.run fuel pf e ma = Returned ma' /\
      [/\ r_eq (m_res ma') = Equivalent <-> V1 *m proj0 C A = V2 *m proj0 C A,
          r_eq (m_res ma') = EquivalentUpToGlobalPhase <-> exists w, [/\ `|w| = 1, w != 1 & V1 *m proj0 C A = w *: (V2 *m proj0 C A)] &
          r_eq (m_res ma') = NotEquivalent <-> forall w, V1 *m proj0 C A <> w *: (V2 *m proj0 C A)]].
Proof.
move=> nd n m c1 c2 c1' c2' W1 W2 a1 a2 g1 g2 L U1 U2 EP En Em p1 p2 A1 A2 A zero.
have [V1 [V2 [R1 R2 H]]] := C64_run_decides_given_circuits W1 W2 a1 a2 g1 g2 U1 U2 EP En Em zero.
have [E2 _] := C64_operators_kept W1 W2 a1 a2 g1 g2 EP En Em.
exists V1, V2; split=> // q s eps hq hs e0 MT word unif t e cl hc hst hd fuel pf ma l g'; apply: (H _ _ _ hq hs e0 _ _ (ket cl)) => //.
by rewrite -(common_own Em E2); exact: C65_stimuli_fit W1 W2 EP L Em E2 hc hst.
Qed.

(** the hypotheses are met: a generator environment for every pair of circuits, states that may serve as Clifford states *)
Definition generator_env (c1 c2 : circ) : env stimulus (gen N) :=
  gen_env (Nat.max (q_n c1) (q_n c2)) (Nat.max (q_n c1) (q_n c2) - primary c1)%coq_nat.
Lemma generator_env_of (c1 c2 : circ) ch a c sm : (primary c1 <= 63)%coq_nat ->
  stimuli_of cword cunif c1 c2 ComputationalBasis (with_verdicts (generator_env c1 c2) ch a c sm).
Proof.
move=> L g s g'; have P := primary_le c1; have := @cgen_models (Nat.max (q_n c1) (q_n c2)) (Nat.max (q_n c1) (q_n c2) - primary c1)%coq_nat.
by move=> /(_ ltac:(lia) g s g').
Qed.
Lemma clifford_ex m : exists cl : stab -> vec m, clifford_states cl.
Proof. by exists (fun _ => product_state C m.+1 nil) => x; apply: product_fits => q _; rewrite nth_nil. Qed.

(** ** ancillaries that are not last *)
(** qubit 0 is ancillary in both circuits; CX from it against nothing. The circuits agree whenever the ancillary is 0, but the simulation
    draws stimuli with a 1 there: with one simulation and this random source, the run answers 'not equivalent' *)
Theorem C65_any_ancillaries_refuted : exists c1 c2 : circ,
  [/\ wf_circ c1, wf_circ c2, acts_inside c1 & acts_inside c2] /\ [/\ garbage_unread c1, garbage_unread c2,
      forall nd, prepare (@on_qubits C) nd c1 c2 = PVal (c1, c2), q_n c1 = 2%N & q_n c2 = 2%N] /\
  let p1 := as_circuit 1 c1 in let p2 := as_circuit 1 c2 in let A := common_ancillaries 1 c1 c2 in
  [/\ unitary_circuit p1, unitary_circuit p2, ancillaries_handled p1 p2 A &
      forall V1 V2, realises p1 V1 -> realises p2 V2 -> V1 *m proj0 C A = V2 *m proj0 C A] /\
  forall (q : package C [finType of 'I_2] nat_eqType) (s : schemes) (zero : nat) (eps : C),
  exact_package q -> @same_node_test C [lmodType C of vec 1] (q_nodeV q) -> good_schemes q p1 p2 s -> 0 < eps -> eps <= 1 ->
  forall (e : env stimulus (gen N)) (clifford : stab -> vec 1),
    clifford_states clifford -> stimuli_of cword cunif c1 c2 ComputationalBasis e -> describes q s zero p1 p2 (own_ancillaries 1 c1) (own_ancillaries 1 c2) eps (ket clifford) e ->
    forall fuel pf ma, choose_flow e (m_cfg ma) = FSequential -> never_fires e (m_cfg ma) -> no_exceptions e (m_cfg ma) ->
    runSimulationChecker (exec (m_cfg ma)) = true -> maxSims (sim (m_cfg ma)) = 1%num -> r_performed (m_res ma) = 0%num ->
    m_gen ma = mkGen 1%num nil -> (1 < fuel)%coq_nat ->
    exists ma', SeqFlow.run fuel pf e ma = Returned ma' /\ r_eq (m_res ma') = NotEquivalent.
Proof.
exists (anc0 [:: cx01 C]), (anc0 nil); split; first by split; try exact: anc0_wf; [exact: anc0_inside1|exact: anc0_inside2].
split; first by split=> // nd; vm_compute; reflexivity.
split; first by split; [exact: un1|exact: un2|exact: demo_handled|exact: demo_agree].
move=> q s zero eps hq hn hs e0 e1 e cl hc hst hd fuel pf ma h1 h2 h3 h4 h5 h6 h7 h8.
have [V1 [V2 [R1 R2 H]]] := runs_compute zero (wf1 C) (wf2 C) (@un1 C).
have [[_ _ hsm] [_ _ nls]] := hs.
have [_ _ HS] := H (q_equals q) (q_view q) (s_sim s) NoInformation hsm.
have [y Y _] := HS (ket cl (SBits [:: true; false])) (sim_check (q_nodeV q) (q_weightV q) eps) nls.
have [_ _ _ hsim] := hd; have [ys Ys] := hsim (SBits [:: true; false]).
have := verdict_injv (etrans (esym Ys) Y); rewrite (demo_differ cl (q_weightV q) R1 R2 hn e1) => ES.
have rf : e_sim e (SBits [:: true; false]) = SNotEquivalent by move: ES; case: (e_sim e _).
have D : draws e (m_gen ma) (SBits [:: true; false] :: nil) (mkGen 2%num (1%num :: nil)).
  econstructor; last by constructor.
  by rewrite h7; apply/hst; exists 2%N; case: (e_ndebug e); vm_compute.
have FR : first_refuting e (SBits [:: true; false] :: nil) 1%num (SBits [:: true; false]) by apply: (@first_at _ _ _ _ _ _ nil nil).
have [|ma' [Rm E]] := verdict_refuted fuel pf e ma _ _ _ _ h1 h2 h3 h6 D _ h8 h4 FR; first by rewrite h5.
by exists ma'; split=> //; rewrite E.
Qed.

(** the hypotheses of both theorems are met: the same circuits with the qubits exchanged satisfy [ancillaries_last] *)
Example C65_environments_exist (c1 c2 : circ) m (s : schemes) : (primary c1 <= 63)%coq_nat ->
  wf_circuit (as_circuit m c1) -> wf_circuit (as_circuit m c2) -> unitary_circuit (as_circuit m c1) ->
  good_schemes (demo_package C [finType of 'I_m.+1] nat_eqType) (as_circuit m c1) (as_circuit m c2) s ->
  exists (cl : stab -> vec m) (e : env stimulus (gen N)),
    [/\ clifford_states cl, stimuli_of cword cunif c1 c2 ComputationalBasis e &
        describes (demo_package C [finType of 'I_m.+1] nat_eqType) s 0%N (as_circuit m c1) (as_circuit m c2) (own_ancillaries m c1) (own_ancillaries m c2) 1 (ket cl) e].
Proof.
move=> L W1 W2 U1 gs; have [cl hc] := clifford_ex m.
have [ch [a [c [sm D]]]] := @describes_ex C [finType of 'I_m.+1] nat_eqType 0%N (as_circuit m c1) (as_circuit m c2) W1 W2 U1
  (demo_package C [finType of 'I_m.+1] nat_eqType) s (own_ancillaries m c1) (own_ancillaries m c2) 1 gs _ _ (ket cl) (generator_env c1 c2).
by exists cl, (with_verdicts (generator_env c1 c2) ch a c sm); split=> //; exact: generator_env_of.
Qed.
Example C65_schemes_exist : let s := Schemes SOneToOne SOneToOne SOneToOne in
  [/\ exact_package (demo_package C [finType of 'I_2] nat_eqType),
      @same_node_test C [lmodType C of vec 1] (q_nodeV (demo_package C [finType of 'I_2] nat_eqType)) &
      good_schemes (demo_package C [finType of 'I_2] nat_eqType) (as_circuit 1 (anc0 [:: cx01 C])) (as_circuit 1 (anc0 nil)) s].
Proof.
split; [exact: demo_exact|by move=> e f; exact: demo_nodeP|].
split; split=> //; split; first exact: demo_equals_exact.
by move=> pre1 o1 post1 pre2 o2 post2 _ /=; case: pre2.
Qed.
(** the circuits of C64_hypotheses_met: after the preparation two qubits are left, the second one ancillary in both *)
Example C65_last_example : let c1 := idq [:: ZXDemo.Had C 0; ZXDemo.Had C 3; ZXDemo.Had C 3] 4 in let c2 := idq [:: ZXDemo.Had C 0] 3 in
  ancillaries_last c1 /\ exists c1' c2', [/\ prepare (@on_qubits C) true c1 c2 = PVal (c1', c2'), primary c1' = 1%N, q_anc c1' 1 = true &
    exists g', setRandomInitialState cword cunif true 5 c1' c2' ComputationalBasis (mkGen 1%num nil) = GState (SBits [:: true; false]) g'].
Proof. by split=> //; eexists _, _; split; [vm_compute; reflexivity|vm_compute; reflexivity| |eexists; vm_compute; reflexivity]. Qed.
End P.
Print Assumptions C65_stimuli_fit.
Print Assumptions C65_run_with_generator_decides.
Print Assumptions C65_any_ancillaries_refuted.
