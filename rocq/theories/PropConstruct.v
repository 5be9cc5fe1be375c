(** C68: constructing a manager from two circuits and running it decides whether the circuits as given are equivalent: the circuit
    optimisation passes (as far as each of them keeps the meaning of a circuit), the removal of idle qubits, the completion of ancillaries
    and garbage, the fallback to the construction checker and the limit on the number of simulations never change the answer.
    Property file. *)
From Coq Require Import BinNums NArith List Arith Lia.
From mathcomp Require Import all_ssreflect all_fingroup all_algebra.
From Verif Require Import Criterion Config SeqFlow SeqSpec SeqDemo VerdictSpec ParFlow ParSpec Perm PermSpec Prep PrepSpec Passes PassesSpec StateGen StateGenSpec StateGenProofs2 PropStateGen Stim StimSpec
  Schemes DDCheck DDSpec Qubits DDSem DDSemProofs2 DDDemo DDDemoProofs3 DDFlow PrepSem Choice ParDecide ZXDemo PropPrepSem StimSem PropStim GateProofs ZXDemoProofs DDFlowProofs EndToEndProofs Construct ConstructProofs ConstructProofs2 ConstructDemo ZX ZXSem EndToEnd ConstructProofs3.
Set Implicit Arguments.
Unset Strict Implicit.
Unset Printing Implicit Defensive.
Import GRing.Theory Num.Theory.
Local Open Scope ring_scope.

Section P.
Variable C : numClosedFieldType.
Local Notation gate := (gate C nat_eqType).
Local Notation op := (op nat gate).
Local Notation circ := (circ op).
Local Notation mat n := (mat C [finType of 'I_n.+1]).
Local Notation vec n := (vec C [finType of 'I_n.+1]).

(** sequential flow. [n.+1]: qubits of the larger circuit; [m.+1]: qubits that are left after the constructor; the run happens with the
    configuration the constructor arrives at *)
Theorem C68_sequential_run_decides : forall (apply : pass -> circ -> circ) isEmpty isDynamic varfree nd cfg n m (c1 c2 c1' c2' : circ) (s : settings),
  good_circuit n c1 -> good_circuit n c2 -> ancillaries_agree c1 c2 -> isDynamic c1 = false -> isDynamic c2 = false ->
  (forall p, List.In p (schedule (opts cfg) false) -> keeps_meaning n (apply p)) -> exact_configured cfg ->
  construct (@on_qubits C) apply isEmpty isDynamic varfree nd cfg c1 c2 = PVal (c1', c2', s) -> maxn (q_n c1) (q_n c2) = n.+1 -> q_n c1' = m.+1 ->
  let p1 := as_circuit m c1' in let p2 := as_circuit m c2' in let A1 := own_ancillaries m c1' in let A2 := own_ancillaries m c2' in
  let A := common_ancillaries n c1 c2 in let c := constructed cfg s in
  forall zero : nat, exists V1 V2 : mat n, [/\ realises (as_circuit n c1) V1, realises (as_circuit n c2) V2 &
  forall (q : package C [finType of 'I_m.+1] nat_eqType) (sch : schemes) (eps : C), exact_package q -> good_schemes q p1 p2 sch -> 0 < eps ->
  forall (MT : Type) (word : MT -> N * MT) unif t (e : env stimulus (gen MT)) (clifford : stab -> vec m),
    clifford_states clifford -> stimuli_of word unif c1' c2' t e -> describes q sch zero p1 p2 A1 A2 eps (ket clifford) e -> checkers_constructible e c ->
    forall fuel pf ma, plain_sequential_run fuel e c ma -> exists ma', SeqFlow.run fuel pf e ma = Returned ma' /\ right_answer A V1 V2 (r_eq (m_res ma'))].
Proof. exact: (@construct_seq C). Qed.

(** the same in the parallel flow, for every schedule in which no timeout is configured and the ZX checker does not take part *)
Theorem C68_parallel_run_decides : forall (apply : pass -> circ -> circ) isEmpty isDynamic varfree nd cfg n m (c1 c2 c1' c2' : circ) (s : settings),
  good_circuit n c1 -> good_circuit n c2 -> ancillaries_agree c1 c2 -> isDynamic c1 = false -> isDynamic c2 = false ->
  (forall p, List.In p (schedule (opts cfg) false) -> keeps_meaning n (apply p)) -> exact_configured cfg ->
  construct (@on_qubits C) apply isEmpty isDynamic varfree nd cfg c1 c2 = PVal (c1', c2', s) -> maxn (q_n c1) (q_n c2) = n.+1 -> q_n c1' = m.+1 ->
  let p1 := as_circuit m c1' in let p2 := as_circuit m c2' in let A1 := own_ancillaries m c1' in let A2 := own_ancillaries m c2' in
  let A := common_ancillaries n c1 c2 in let c := constructed cfg s in
  forall zero : nat, exists V1 V2 : mat n, [/\ realises (as_circuit n c1) V1, realises (as_circuit n c2) V2 &
  forall (q : package C [finType of 'I_m.+1] nat_eqType) (sch : schemes) (eps : C), exact_package q -> good_schemes q p1 p2 sch -> 0 < eps ->
  forall (MT : Type) (word : MT -> N * MT) unif t (e : env stimulus (gen MT)) (clifford : stab -> vec m),
    clifford_states clifford -> stimuli_of word unif c1' c2' t e -> describes q sch zero p1 p2 A1 A2 eps (ket clifford) e -> checkers_constructible e c ->
    forall g pp x, plain_parallel_run e c g -> ~ zx_runs e c -> run_to_end e c g pp x -> p_main x = MReturned /\ right_answer A V1 V2 (r_eq (p_res x))].
Proof. exact: (@construct_par C). Qed.

(** and of every run that returns - interrupted by timeouts or not, with any checkers - a definitive verdict is true of the circuits as given. If
    the ZX checker takes part: no garbage common to both prepared circuits *)
Theorem C68_definitive_verdicts_true : forall (apply : pass -> circ -> circ) isEmpty isDynamic varfree nd cfg n m (c1 c2 c1' c2' : circ) (s : settings),
  good_circuit n c1 -> good_circuit n c2 -> ancillaries_agree c1 c2 -> isDynamic c1 = false -> isDynamic c2 = false ->
  (forall p, List.In p (schedule (opts cfg) false) -> keeps_meaning n (apply p)) ->
  construct (@on_qubits C) apply isEmpty isDynamic varfree nd cfg c1 c2 = PVal (c1', c2', s) -> maxn (q_n c1) (q_n c2) = n.+1 -> q_n c1' = m.+1 ->
  let p1 := as_circuit m c1' in let p2 := as_circuit m c2' in let A1 := own_ancillaries m c1' in let A2 := own_ancillaries m c2' in
  let A := common_ancillaries n c1 c2 in let c := constructed cfg s in
  forall zero : nat, exists V1 V2 : mat n, [/\ realises (as_circuit n c1) V1, realises (as_circuit n c2) V2 &
  forall (q : package C [finType of 'I_m.+1] nat_eqType) (sch : schemes) (eps : C), exact_package q -> good_schemes q p1 p2 sch -> 0 < eps ->
  forall (MT : Type) (word : MT -> N * MT) unif t (e : env stimulus (gen MT)) (clifford : stab -> vec m),
    clifford_states clifford -> stimuli_of word unif c1' c2' t e -> describes q sch zero p1 p2 A1 A2 eps (ket clifford) e ->
    (runZXChecker (exec c) = true ->
      [/\ full_maps p1, full_maps p2, forall i : 'I_m.+1, ~~ (q_gar c1' i && q_gar c2' i) & zx_describes (q_gar c1') (q_gar c2') p1 p2 e]) ->
    (forall fuel pf ma ma', m_cfg ma = c -> choose_flow e c = FSequential -> SeqFlow.run fuel pf e ma = Returned ma' ->
       definitive (r_eq (m_res ma')) -> true_verdict A V1 V2 (r_eq (m_res ma'))) /\
    (forall g pp x, sane_sims c -> enough_threads e c -> par_returned e c g pp x -> definitive (r_eq (p_res x)) -> true_verdict A V1 V2 (r_eq (p_res x)))].
Proof. exact: (@construct_sound C). Qed.

(** the supply of stimuli that such a run needs is there: the constructor limits the number of simulations to what a fresh generator can
    produce, for every kind of stimulus *)
Theorem C68_stimuli_suffice : forall (apply : pass -> circ -> circ) isEmpty isDynamic varfree nd cfg (c1 c2 c1' c2' : circ) (s : settings),
  construct (@on_qubits C) apply isEmpty isDynamic varfree nd cfg c1 c2 = PVal (c1', c2', s) -> runSimulationChecker (exec cfg) = true ->
  forall (MT : Type) (word : MT -> N * MT) unif (e : env stimulus (gen MT)) g,
    stimuli_of word unif c1' c2' (stateTyp (sim cfg)) e -> fair unif -> in_range unif -> g_used g = nil ->
    (stateTyp (sim cfg) = Stabilizer -> (0 < primary c1')%coq_nat) -> gen_supplies e g (maxSims (sim (constructed cfg s))).
Proof.
move=> apply isEmpty isDynamic varfree nd cfg c1 c2 c1' c2' s EC rs MT word unif e g hst hf hr hg hs.
have [o1 [o2 [_ _ _ CL]]] := construct_parts EC; rewrite rs in CL; exact: any_type_supplies hst hf hr hg hs CL.
Qed.

(** the alternating checker that the constructor leaves configured is never refused *)
Theorem C68_never_refused : forall (apply : pass -> circ -> circ) isEmpty isDynamic varfree nd cfg n m (c1 c2 c1' c2' : circ) (s : settings),
  good_circuit n c1 -> good_circuit n c2 -> ancillaries_agree c1 c2 -> isDynamic c1 = false -> isDynamic c2 = false ->
  (forall p, List.In p (schedule (opts cfg) false) -> keeps_meaning n (apply p)) ->
  construct (@on_qubits C) apply isEmpty isDynamic varfree nd cfg c1 c2 = PVal (c1', c2', s) -> maxn (q_n c1) (q_n c2) = n.+1 -> q_n c1' = m.+1 ->
  runAlternatingChecker (exec (constructed cfg s)) = true -> can_handle (as_circuit m c1') (as_circuit m c2') (own_ancillaries m c1') (own_ancillaries m c2').
Proof.
move=> apply isEmpty isDynamic varfree nd cfg n m c1 c2 c1' c2' s G1 G2 AG d1 d2 KM EC En Em.
by have [o1 [o2 [_ _ _ _ [_ _ _ H]]]] := construct_facts G1 G2 AG d1 d2 KM EC En Em.
Qed.

(** circuits without ancillaries meet the conditions on ancillaries, and the configured checkers stay as they are; equivalence then is
    equality of the operators on all inputs with zeros on the qubits that only one circuit has - on all inputs if the sizes agree *)
Theorem C68_no_ancillaries : forall (apply : pass -> circ -> circ) isEmpty isDynamic varfree nd cfg n (c1 c2 c1' c2' : circ) (s : settings),
  good_circuit n c1 -> good_circuit n c2 -> no_ancillaries c1 -> no_ancillaries c2 -> isDynamic c1 = false -> isDynamic c2 = false ->
  (forall p, List.In p (schedule (opts cfg) false) -> keeps_meaning n (apply p)) ->
  construct (@on_qubits C) apply isEmpty isDynamic varfree nd cfg c1 c2 = PVal (c1', c2', s) ->
  [/\ ancillaries_agree c1 c2, common_ancillaries n c1 c2 = [set q : 'I_n.+1 | (minn (q_n c1) (q_n c2) <= q)%N],
      runAlternatingChecker (exec (constructed cfg s)) = runAlternatingChecker (exec cfg) &
      runConstructionChecker (exec (constructed cfg s)) = runConstructionChecker (exec cfg)] /\
  (q_n c1 = n.+1 -> q_n c2 = n.+1 -> proj0 C (common_ancillaries n c1 c2) = 1%:M).
Proof.
move=> apply isEmpty isDynamic varfree nd cfg n c1 c2 c1' c2' s G1 G2 N1 N2 d1 d2 KM EC.
have [o1 [o2 [EO EP EF _]]] := construct_parts EC.
have [[H1 n1 an1 r1] [H2 n2 an2 r2]] := passes_meaning G1 G2 d1 d2 KM EO.
have [W1 a1 _ _ _] := H1; have [W2 a2 _ _ _] := H2.
have CH : canHandle (@on_qubits C) c1' c2' = true.
  apply: (prepared_no_ancillaries (@on_qubits C) nd o1 o2 c1' c2' W1 W2 a1 a2 _ _ EP) => q; [by rewrite an1|by rewrite an2].
have EC2 : common_ancillaries n c1 c2 = [set q : 'I_n.+1 | (minn (q_n c1) (q_n c2) <= q)%N] by apply/setP => q; rewrite !inE N1 orbF.
move: EF; rewrite /fallback CH andbF => -[ea ek]; rewrite /= ea ek; split.
  by split=> //; split=> [q _|q q' _ _]; rewrite N1 ?N2.
move=> e1 e2; have -> : common_ancillaries n c1 c2 = set0.
  by rewrite EC2; apply/setP => q; rewrite !inE e1 e2 minnn leqNgt ltn_ord.
exact: EndToEndProofs.proj0_none.
Qed.

(** ** the hypotheses are met *)
(** H on qubit 0 and twice on qubit 1 of three qubits, against H on a single qubit; the passes do nothing; sequential flow with the
    simulation and the alternating checker *)
Local Notation c1 := (idq [:: Had C 0; Had C 1; Had C 1] 3).
Local Notation c2 := (idq [:: Had C 0] 1).
Local Notation cfg := construct_cfg.
Local Notation nothing := (fun (_ : pass) (c : circ) => c).
Local Notation no := (fun _ : circ => false).
Local Notation yes := (fun _ : circ => true).
Lemma hads_good n (l : seq op) k : (forall o, List.In o l -> exists2 q, o = Had C q & (q < k)%N) -> good_circuit n (idq l k).
Proof.
move=> H; split; first exact: idq_wf.
- move=> o p Ho; have [q -> lq] := H o Ho; rewrite /on_qubits /= inE => /eqP ->; exists q; by rewrite /maps /= idq_find lq.
- by [].
- by [].
- move=> o /H [q -> _] /=; apply: unitary_matrix_gate; split=> //=; exact: hmat_unitary.
Qed.
Lemma demo_unitary (d1 : circ) : q_ops d1 = [:: Had C 0; Had C 1; Had C 1] -> unitary_circuit (as_circuit 1 d1).
Proof.
move=> O1 o; rewrite /= O1 => Ho; have [k ->] : exists k, o = Had C k by case: Ho => [<-|[<-|[<-|[]]]]; [exists 0%N|exists 1%N|exists 1%N].
by apply: unitary_matrix_gate; split=> //=; exact: hmat_unitary.
Qed.
Lemma demo_good_schemes (d1 d2 : circ) : q_lay d1 = [:: (0, 0); (1, 1)]%N -> q_lay d2 = [:: (0, 0); (1, 1)]%N ->
  q_ops d1 = [:: Had C 0; Had C 1; Had C 1] -> q_ops d2 = [:: Had C 0] ->
  good_schemes (demo_package C [finType of 'I_2] nat_eqType) (as_circuit 1 d1) (as_circuit 1 d2) (Schemes SOneToOne SOneToOne SOneToOne).
Proof.
move=> L1 L2 O1 O2; split; split=> //; split; first exact: demo_equals_exact.
apply: elided_placement.
- by move=> o; rewrite /= O1; case=> [<-|[<-|[<-|[]]]].
- by move=> o; rewrite /= O2; case=> [<-|[]].
- by move=> o k _ _; rewrite /= L1 L2.
Qed.
Example C68_hypotheses_met :
  [/\ good_circuit 2 c1, good_circuit 2 c2, no_ancillaries c1 & no_ancillaries c2] /\
  (forall p, List.In p (schedule (opts cfg) false) -> keeps_meaning 2 (nothing p)) /\ exact_configured cfg /\ maxn (q_n c1) (q_n c2) = 3%N /\
  exists c1' c2' s, [/\ construct (@on_qubits C) nothing no no yes true cfg c1 c2 = PVal (c1', c2', s), q_n c1' = 2%N, s_maxSims s = 2%num & q_anc c1' 1 = true] /\
  let p1 := as_circuit 1 c1' in let p2 := as_circuit 1 c2' in let A1 := own_ancillaries 1 c1' in let A2 := own_ancillaries 1 c2' in
  let q := demo_package C [finType of 'I_2] nat_eqType in let sch := Schemes SOneToOne SOneToOne SOneToOne in let c := constructed cfg s in
  exact_package q /\ good_schemes q p1 p2 sch /\
  exists (cl : stab -> vec 1) (e : env stimulus (gen N)),
    [/\ clifford_states cl, stimuli_of cword cunif c1' c2' ComputationalBasis e, describes q sch 0%N p1 p2 A1 A2 1 (ket cl) e, checkers_constructible e c &
        plain_sequential_run 3 e c (fresh c (mkGen 1%num nil) (QArith_base.Qmake Z0 xH))].
Proof.
have G1 : good_circuit 2 c1 by apply: hads_good => o /=; case=> [<-|[<-|[<-|[]]]]; [exists 0%N|exists 1%N|exists 1%N].
have G2 : good_circuit 2 c2 by apply: hads_good => o /=; case=> [<-|[]]; exists 0%N.
split; first by split.
have KM p : List.In p (schedule (opts cfg) false) -> keeps_meaning 2 (nothing p) by move=> _ c G; split.
split=> //; split; first by left.
split=> //.
have [d1 [d2 [s [EC [En [Es Esa Esc] [Ea Ep] [L1 L2] [O1 O2]]]]]] : exists d1 d2 s, construct (@on_qubits C) nothing no no yes true cfg c1 c2 = PVal (d1, d2, s) /\
  [/\ q_n d1 = 2%N, [/\ s_maxSims s = 2%num, Passes.s_alt s = true & Passes.s_con s = false], q_anc d1 1 = true /\ primary d1 = 1%N, q_lay d1 = [:: (0, 0); (1, 1)]%N /\ q_lay d2 = [:: (0, 0); (1, 1)]%N & q_ops d1 = [:: Had C 0; Had C 1; Had C 1] /\ q_ops d2 = [:: Had C 0]].
  by eexists _, _, _; split; [vm_compute; reflexivity|split].
exists d1, d2, s; split; first by split.
move=> p1 p2 A1 A2 q sch c; split; first exact: demo_exact.
have [o1 [o2 [EO EP _ _]]] := construct_parts EC.
have [[H1 n1 an1 r1] [H2 n2 an2 r2]] := passes_meaning G1 G2 erefl erefl KM EO.
have [W1 a1 g1 _ U1] := H1; have [W2 a2 g2 _ U2] := H2.
have En' : maxn (q_n o1) (q_n o2) = 3%N by rewrite n1 n2.
have [_ [F [[Wf1 Wf2] _ _ _ _]]] := C64_operators_kept W1 W2 a1 a2 g1 g2 EP En' En.
have U : unitary_circuit p1 := demo_unitary O1.
have gs : good_schemes q p1 p2 sch := demo_good_schemes L1 L2 O1 O2.
split; first exact: gs.
have Lp : (primary d1 <= 63)%coq_nat by rewrite Ep; lia.
have [cl hc] := clifford_ex C 1.
have [ch [a [k [sm D]]]] := @describes_ex C [finType of 'I_2] nat_eqType 0%N p1 p2 Wf1 Wf2 U q sch A1 A2 1 gs _ _ (ket cl) (generator_env d1 d2).
have St := @generator_env_of C d1 d2 ch a k sm Lp.
exists cl, (with_verdicts (generator_env d1 d2) ch a k sm).
have GS := C68_stimuli_suffice EC erefl St cunif_fair cunif_range (erefl : g_used (mkGen 1%num nil) = nil) ltac:(discriminate).
have [X Y] := demo_constructed (with_verdicts (generator_env d1 d2) ch a k sm) s (mkGen 1%num nil) erefl erefl erefl erefl erefl erefl Esa Esc Es GS.
split; [exact: hc|exact: St|exact: D|exact: X|exact: Y].
Qed.
End P.
Print Assumptions C68_sequential_run_decides.
Print Assumptions C68_parallel_run_decides.
Print Assumptions C68_definitive_verdicts_true.
Print Assumptions C68_stimuli_suffice.
Print Assumptions C68_never_refused.
Print Assumptions C68_no_ancillaries.
