(** Concrete answers for C74: three circuits and runs for each pair of them. *)
From Coq Require Import BinNums NArith List Arith QArith Lia.
From Verif Require Import Criterion Config SeqFlow SeqSpec SeqDemo VerdictSpec Passes Construct ConstructDemo.
Lemma demo_constructed4 {Stim Gen} (e : env Stim Gen) s g : e_empty e = false -> e_varfree e = true -> e_fire e = None -> e_ndebug e = true -> e_profile_ok e = true ->
  e_zx_perm_ok e = true -> Passes.s_alt s = true -> Passes.s_con s = false -> (s_maxSims s <= 4)%N -> gen_supplies e g (maxSims (sim (constructed construct_cfg s))) ->
  checkers_constructible e (constructed construct_cfg s) /\ plain_sequential_run 5 e (constructed construct_cfg s) (fresh (constructed construct_cfg s) g 0).
Proof.
  intros E V F N P Z A K M S. split.
  - split; intros _; cbn; rewrite ?P; auto.
  - split; [split|split].
    + reflexivity.
    + reflexivity.
    + unfold choose_flow, anythingToExecute, onlySingleTask, constructed. cbn. rewrite E, V, A, K, Bool.orb_true_r. cbn. destruct (s_maxSims s =? 1)%N; reflexivity.
    + unfold never_fires. cbn. auto.
    + exact S.
    + cbn [constructed sim maxSims]. change (N.of_nat 5) with 5%N. lia.
    + auto.
Qed.

From mathcomp Require Import all_ssreflect all_fingroup all_algebra.
From Verif Require Import ParFlow ParSpec Perm PermSpec Prep PrepSpec PassesSpec StateGen StateGenSpec StateGenProofs2 PropStateGen Stim StimSpec
  Schemes DDCheck DDSpec Qubits QubitsProofs QubitsProofs2 GateProofs DDSem DDSemProofs2 DDSemProofs4 DDDemo DDDemoProofs DDDemoProofs3 DDFlow DDFlowProofs PrepSem PrepSemProofs PrepSemProofs2 PrepSemProofs3 PropPrepSem
  Choice ParDecide StimSem PropStim StimDemoProofs ZXDemo ZXDemoProofs ConstructProofs ConstructProofs2 PropConstruct EndToEndProofs Relation RelationProofs.
Set Implicit Arguments.
Unset Strict Implicit.
Unset Printing Implicit Defensive.
Import GRing.Theory Num.Theory.
Local Open Scope ring_scope.

Section Demo.
Variable C : numClosedFieldType.
Local Notation gate := (gate C nat_eqType).
Local Notation op := (op nat gate).
Local Notation circ := (circ op).
Local Notation mat n := (mat C [finType of 'I_n.+1]).
Local Notation nothing := (fun (_ : pass) (c : circ) => c).
Local Notation no := (fun _ : circ => false).
Local Notation yes := (fun _ : circ => true).

(** circuits of plain unitary gates *)
Definition plain_gates (c : circ) : Prop := forall o, List.In o (q_ops c) -> exists2 g, o = OGate nat gate g & unitary_matrix g.
Lemma plain_unitary n (c : circ) : plain_gates c -> unitary_circuit (as_circuit n c).
Proof. by move=> H o Ho; have [g -> U] := H o Ho; exact: unitary_matrix_gate. Qed.
Lemma demo_answers n m (c1 c2 d1 d2 : circ) s : good_circuit n c1 -> good_circuit n c2 -> no_ancillaries c1 -> no_ancillaries c2 ->
  maxn (q_n c1) (q_n c2) = n.+1 -> construct (@on_qubits C) nothing no no yes true construct_cfg c1 c2 = PVal (d1, d2, s) -> q_n d1 = m.+1 ->
  [/\ Passes.s_alt s = true, Passes.s_con s = false & (s_maxSims s <= 4)%num] -> (primary d1 <= 63)%coq_nat -> q_lay d1 = q_lay d2 -> plain_gates d1 -> plain_gates d2 ->
  exists v, answers n c1 c2 v.
Proof.
move=> G1 G2 N1 N2 En EC Em [Esa Esc Es] Lp EL P1 P2.
have KM p : List.In p (schedule (opts construct_cfg) false) -> keeps_meaning n (nothing p) by move=> _ c G; split.
have AG : ancillaries_agree c1 c2 by split=> [q _|q q' _ _]; rewrite N1 ?N2.
have [o1 [o2 [EO EP _ _]]] := construct_parts EC.
have [[H1 n1 an1 r1] [H2 n2 an2 r2]] := passes_meaning G1 G2 erefl erefl KM EO.
have [W1 a1 g1 _ U1] := H1; have [W2 a2 g2 _ U2] := H2.
have En' : maxn (q_n o1) (q_n o2) = n.+1 by rewrite n1 n2.
have [_ [F [[Wf1 Wf2] _ _ _ _]]] := C64_operators_kept W1 W2 a1 a2 g1 g2 EP En' Em.
pose q := demo_package C [finType of 'I_m.+1] nat_eqType; pose sch := Schemes SOneToOne SOneToOne SOneToOne.
have gs : good_schemes q (as_circuit m d1) (as_circuit m d2) sch.
  split; split=> //; split; first exact: demo_equals_exact.
  apply: elided_placement.
  - by move=> o /P1 [g -> _].
  - by move=> o /P2 [g -> _].
  - by move=> o k _ _; rewrite /= EL.
have [cl hc] := clifford_ex C m.
have [ch [a [k [sm D]]]] := @describes_ex C [finType of 'I_m.+1] nat_eqType 0%N _ _ Wf1 Wf2 (plain_unitary P1) q sch (own_ancillaries m d1) (own_ancillaries m d2) 1 gs _ _ (ket cl) (generator_env d1 d2).
pose e := with_verdicts (generator_env d1 d2) ch a k sm.
have St : stimuli_of cword cunif d1 d2 ComputationalBasis e := @generator_env_of C d1 d2 ch a k sm Lp.
have GS := C68_stimuli_suffice EC erefl St cunif_fair cunif_range (erefl : g_used (mkGen 1%num nil) = nil) ltac:(discriminate).
have [X Y] := demo_constructed4 e s (mkGen 1%num nil) erefl erefl erefl erefl erefl erefl Esa Esc Es GS.
have EX : exact_configured construct_cfg by left.
have [V1 [V2 [R1 R2 H]]] := construct_seq G1 G2 AG erefl erefl KM EX EC En Em 0%N.
have [ma' [E0 RA]] := H q sch 1 (demo_exact C _ _) gs ltr01 _ cword cunif ComputationalBasis e cl hc St D X 5%N (fun _ ma => Returned ma) _ Y.
exists (r_eq (m_res ma')); apply: (@by_sequential_run C n c1 c2 m d1 d2 construct_cfg s _ e) E0 => //.
- by exists nothing, no, no, yes, true.
- by exists q, sch, 1, 0%N, cword, cunif, ComputationalBasis, cl; split=> //; split=> //; [exact: demo_exact|exact: ltr01].
Qed.

(** H, on one and on two qubits; H on two qubits followed by an X on qubit 0 controlled by qubit 1 *)
Definition cx10 : op := OGate nat gate (Gate [:: (1%N, true)] [:: 0%N] (@xmat C) false).
Definition small : circ := idq [:: Had C 0] 1.
Definition big : circ := idq [:: Had C 0] 2.
Definition big_cx : circ := idq [:: Had C 0; cx10] 2.
Lemma had_um q : unitary_matrix (hgate C q). Proof. by split=> //=; exact: hmat_unitary. Qed.
Lemma cx10_um : unitary_matrix (Gate [:: (1%N, true)] [:: 0%N] (@xmat C) false : gate).
Proof. by split=> //=; [move=> q; rewrite !inE => /eqP ->|exact: xmat_unitary]. Qed.
Lemma plain_small (c : circ) : q_ops c = [:: Had C 0] -> plain_gates c.
Proof. by move=> E o; rewrite E; case=> [<-|[]]; exists (hgate C 0) => //; exact: had_um. Qed.
Lemma plain_cx (c : circ) : q_ops c = [:: Had C 0; cx10] -> plain_gates c.
Proof. by move=> E o; rewrite E; case=> [<-|[<-|[]]]; [exists (hgate C 0) => //; exact: had_um|eexists=> //; exact: cx10_um]. Qed.
Lemma idq_good n (l : seq op) k : (forall o p, List.In o l -> on_qubits o p -> (p < k)%N) -> plain_gates (idq l k) -> good_circuit n (idq l k).
Proof.
move=> H P; split; first exact: idq_wf.
- by move=> o p Ho Hp; exists p; rewrite /maps /= idq_find (H o p Ho Hp).
- by [].
- by [].
- exact: plain_unitary.
Qed.
Lemma small_good n : good_circuit n small.
Proof. by apply: idq_good; [move=> o p [<-|[]]; rewrite /on_qubits /= inE => /eqP ->|exact: plain_small]. Qed.
Lemma big_good n : good_circuit n big.
Proof. by apply: idq_good; [move=> o p [<-|[]]; rewrite /on_qubits /= inE => /eqP ->|exact: plain_small]. Qed.
Lemma big_cx_good n : good_circuit n big_cx.
Proof. by apply: idq_good; [move=> o p [<-|[<-|[]]]; rewrite /on_qubits /= !inE; [|case/orP] => /eqP ->|exact: plain_cx]. Qed.
Lemma idq_reads_all l k : reads_all (idq l k : circ).
Proof. by move=> q Hq; exists q; rewrite /maps /= idq_find Hq. Qed.
Lemma idq_V n (l : seq op) k V : (k <= n.+1)%N -> realises (as_circuit n (idq l k : circ)) V -> V = sem_ops (c_layout _ _ _ (as_circuit n (idq l k : circ))) l.
Proof.
move=> L R; apply: (realises_uniq (idq_wf l k) L (@idq_reads_all l k) R).
exists 1%g; split=> [i v|q _|]; rewrite ?perm1 ?Pm_1 ?mul1mx //.
move/(outP i v (proj1 (proj2 (proj2 (proj2 (idq_wf l k)))))) => [w [Hw ->]].
by have Hl : maps (q_lay (idq l k : circ)) i w by []; rewrite (lay_at n Hl).
Qed.
Lemma small_cx_answers : exists v, answers 1 big_cx small v.
Proof.
have [d1 [d2 [s [EC [En Es Ep EL [O1 O2]]]]]] : exists d1 d2 s, construct (@on_qubits C) nothing no no yes true construct_cfg big_cx small = PVal (d1, d2, s) /\
  [/\ q_n d1 = 2%N, [/\ Passes.s_alt s = true, Passes.s_con s = false & s_maxSims s = 2%num], primary d1 = 1%N, q_lay d1 = q_lay d2 & q_ops d1 = [:: Had C 0; cx10] /\ q_ops d2 = [:: Had C 0]].
  by eexists _, _, _; split; [vm_compute; reflexivity|split].
have [Ea Ec Em] := Es.
apply: (demo_answers (@big_cx_good 1) (@small_good 1) _ _ _ EC En) => //; rewrite ?Em ?Ep //; [lia|exact: plain_cx|exact: plain_small].
Qed.
Lemma small_big_answers : exists v, answers 1 small big v.
Proof.
have [d1 [d2 [s [EC [En Es Ep EL [O1 O2]]]]]] : exists d1 d2 s, construct (@on_qubits C) nothing no no yes true construct_cfg small big = PVal (d1, d2, s) /\
  [/\ q_n d1 = 1%N, [/\ Passes.s_alt s = true, Passes.s_con s = false & s_maxSims s = 2%num], primary d1 = 1%N, q_lay d1 = q_lay d2 & q_ops d1 = [:: Had C 0] /\ q_ops d2 = [:: Had C 0]].
  by eexists _, _, _; split; [vm_compute; reflexivity|split].
have [Ea Ec Em] := Es.
apply: (demo_answers (@small_good 1) (@big_good 1) _ _ _ EC En) => //; rewrite ?Em ?Ep //; [lia|exact: plain_small|exact: plain_small].
Qed.
Lemma cx_big_answers : exists v, answers 1 big_cx big v.
Proof.
have [d1 [d2 [s [EC [En Es Ep EL [O1 O2]]]]]] : exists d1 d2 s, construct (@on_qubits C) nothing no no yes true construct_cfg big_cx big = PVal (d1, d2, s) /\
  [/\ q_n d1 = 2%N, [/\ Passes.s_alt s = true, Passes.s_con s = false & s_maxSims s = 4%num], primary d1 = 2%N, q_lay d1 = q_lay d2 & q_ops d1 = [:: Had C 0; cx10] /\ q_ops d2 = [:: Had C 0]].
  by eexists _, _, _; split; [vm_compute; reflexivity|split].
have [Ea Ec Em] := Es.
apply: (demo_answers (@big_cx_good 1) (@big_good 1) _ _ _ EC En) => //; rewrite ?Em ?Ep //; [lia|exact: plain_cx|exact: plain_small].
Qed.
Lemma big_big_answers : exists v, answers 1 big big v.
Proof.
have [d1 [d2 [s [EC [En Es Ep EL [O1 O2]]]]]] : exists d1 d2 s, construct (@on_qubits C) nothing no no yes true construct_cfg big big = PVal (d1, d2, s) /\
  [/\ q_n d1 = 1%N, [/\ Passes.s_alt s = true, Passes.s_con s = false & s_maxSims s = 2%num], primary d1 = 1%N, q_lay d1 = q_lay d2 & q_ops d1 = [:: Had C 0] /\ q_ops d2 = [:: Had C 0]].
  by eexists _, _, _; split; [vm_compute; reflexivity|split].
have [Ea Ec Em] := Es.
apply: (demo_answers (@big_good 1) (@big_good 1) _ _ _ EC En) => //; rewrite ?Em ?Ep //; [lia|exact: plain_small|exact: plain_small].
Qed.
Lemma big_cx_answers : exists v, answers 1 big big_cx v.
Proof.
have [d1 [d2 [s [EC [En Es Ep EL [O1 O2]]]]]] : exists d1 d2 s, construct (@on_qubits C) nothing no no yes true construct_cfg big big_cx = PVal (d1, d2, s) /\
  [/\ q_n d1 = 2%N, [/\ Passes.s_alt s = true, Passes.s_con s = false & s_maxSims s = 4%num], primary d1 = 2%N, q_lay d1 = q_lay d2 & q_ops d1 = [:: Had C 0] /\ q_ops d2 = [:: Had C 0; cx10]].
  by eexists _, _, _; split; [vm_compute; reflexivity|split].
have [Ea Ec Em] := Es.
apply: (demo_answers (@big_good 1) (@big_cx_good 1) _ _ _ EC En) => //; rewrite ?Em ?Ep //; [lia|exact: plain_small|exact: plain_cx].
Qed.

Local Notation Lg := [finType of 'I_2].
Local Notation w0 := (inord 0 : 'I_2).
Local Notation w1 := (inord 1 : 'I_2).
Local Notation L := (c_layout nat_eqType Lg gate (as_circuit 1 big)).
Lemma L0 : L 0%N = w0. Proof. by []. Qed.
Lemma L1 : L 1%N = w1. Proof. by []. Qed.
Lemma ops_L (c : circ) (l : seq op) : (forall o q, List.In o l -> q \in op_qubits o -> c_layout nat_eqType Lg gate (as_circuit 1 c) q = L q) ->
  sem_ops (c_layout _ _ _ (as_circuit 1 c)) l = sem_ops L l :> mat 1.
Proof. exact: sem_ops_in. Qed.
Local Notation H0 := (gmx (Lg := Lg) (hgate C 0) L).
Local Notation CX := (gmx (Lg := Lg) (Gate [:: (1%N, true)] [:: 0%N] (@xmat C) false) L).
Lemma small_V V : realises (as_circuit 1 small) V -> V = H0.
Proof.
move=> /(@idq_V 1 _ 1 V isT) ->; rewrite (@ops_L small) /=; first by rewrite mul1mx.
by move=> o q [<-|[]] /=; rewrite inE => /eqP ->.
Qed.
Lemma big_V V : realises (as_circuit 1 big) V -> V = H0.
Proof. by move=> /(@idq_V 1 _ 2 V isT) -> /=; rewrite mul1mx. Qed.
Lemma big_cx_V V : realises (as_circuit 1 big_cx) V -> V = CX *m H0.
Proof. by move=> /(@idq_V 1 _ 2 V isT) -> /=; rewrite mul1mx. Qed.
Lemma anc_w1 (c1 c2 : circ) : no_ancillaries c1 -> minn (q_n c1) (q_n c2) = 1%N -> common_ancillaries 1 c1 c2 = [set w1].
Proof. by move=> N E; apply/setP => q; rewrite !inE E N orbF; case: (two q) => ->; rewrite ?eqxx 1?eq_sym ?w01 inordK. Qed.
Lemma CX_P : CX *m proj0 C [set w1] = proj0 C [set w1].
Proof.
apply: mxP => x z; rewrite entry_projR entry_proj0 entry_mx /gker /= andbT.
have Z y : [forall q in [set w1], ~~ y q] = ~~ y w1 :> bool.
  apply/forallP/idP => [/(_ w1)|H q]; first by rewrite inE eqxx.
  by rewrite inE; apply/implyP => /eqP ->.
rewrite !Z; case: ifP => [/eqP X1|X1]; last by case: eqP => [->|_]; rewrite ?mul0r ?mul1r.
rewrite X1 andbF; case: ifP => [/forallP /(_ w1)|_]; last by rewrite mul0r.
by rewrite inE w01 => /eqP <-; rewrite X1 mulr0.
Qed.
Lemma H_P : H0 *m proj0 C [set w1] = proj0 C [set w1] *m H0.
Proof. by apply: gate_proj0 => q; rewrite inE => /eqP ->; apply/negP => /set1P e; move: w01; rewrite -e eqxx. Qed.
Lemma H_unitary : unitary H0.
Proof. by apply: (unitary_matrix_gate (had_um 0)) => a b; rewrite !inE => /eqP -> /eqP ->. Qed.

Lemma small_cx_value v : answers 1 big_cx small v -> v = Equivalent.
Proof.
move=> /answers_right [V1 [V2 [/big_cx_V -> /small_V -> [HE _ _]]]]; apply/HE.
by rewrite (anc_w1 (c1 := big_cx) (c2 := small)) // -mulmxA H_P mulmxA CX_P.
Qed.
Lemma small_big_value v : answers 1 small big v -> v = Equivalent.
Proof. by move=> /answers_right [V1 [V2 [/small_V -> /big_V -> [HE _ _]]]]; apply/HE. Qed.
Lemma cx_big_value v : answers 1 big_cx big v -> v = NotEquivalent.
Proof.
move=> /answers_right [V1 [V2 [/big_cx_V -> /big_V -> [_ _ HN]]]]; apply/HN => w.
have -> : common_ancillaries 1 big_cx big = set0.
  by apply/setP => q; rewrite !inE /= orbF leqNgt ltn_ord.
rewrite EndToEndProofs.proj0_none !mulmx1 => E.
have {}E : CX = w *: 1%:M.
  by rewrite -[LHS]mulmx1 -H_unitary mulmxA E -scalemxAl.
pose y : basis Lg := [ffun q => q == w1].
pose x : basis Lg := [ffun q => true].
have := congr1 (fun M : mat 1 => entry M x y) E.
rewrite entry_scale entry_1 entry_mx /gker /= andbT !ffunE eqxx /xmat /=.
have -> : [forall q, (q \notin [:: w0]) ==> (x q == y q)].
  by apply/forallP => q; rewrite inE; case: (two q) => ->; rewrite ?eqxx // !ffunE eqxx implybT.
have -> : (x == y) = false by apply/eqP => /ffunP /(_ w0); rewrite !ffunE eq_sym w01.
have E01 : (w0 == w1) = false by rewrite eq_sym w01.
by rewrite E01 /= mulr0 => /eqP; rewrite oner_eq0.
Qed.
End Demo.
