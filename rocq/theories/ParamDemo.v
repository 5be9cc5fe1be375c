(** Parameterised circuits on one qubit: counterexamples and a non-vacuity example for C70. *)
From Coq Require Import BinNums NArith List Arith QArith Qabs Lia.
From mathcomp Require Import all_ssreflect all_fingroup all_algebra.
From Verif Require Import Criterion Config SeqFlow SeqSpec SeqDemo VerdictSpec ParFlow ParSpec Perm PermSpec Prep PrepSpec Passes PassesSpec StateGen StateGenSpec StateGenProofs2 PropStateGen Stim StimSpec
  Schemes DDCheck DDSpec Qubits QubitsProofs DDSem DDSemProofs2 DDDemo DDDemoProofs3 DDFlow DDFlowProofs PrepSem Choice ParDecide ZXSem ZXDemo PropPrepSem StimSem PropStim GateProofs ZXDemoProofs EndToEndProofs
  Construct ConstructProofs ConstructProofs2 ConstructDemo PropConstruct PyParam PyParamSpec ParamInst ParamSem ParamProofs2.
Set Implicit Arguments.
Unset Strict Implicit.
Unset Printing Implicit Defensive.
Import GRing.Theory Num.Theory.
Local Open Scope ring_scope.

Section D.
Variable C : numClosedFieldType.
Local Notation gate := (gate C nat_eqType).
Local Notation op := (op nat gate).
Local Notation pcirc := (circ (pop op)).
Local Notation mat := (mat C [finType of 'I_1]).

(** the gate diag(1, f) on qubit 0 *)
Definition pmat (f : C) (a b : seq bool) : C := if head false a == head false b then (if head false a then f else 1) else 0.
Definition pgate (f : C) : gate := Gate [::] [:: 0%N] (pmat f) false.
Definition Pg (f : C) : op := OGate nat gate (pgate f).
(** a circuit on one qubit *)
Definition one_qubit {A} (l : list A) : circ A := mkCirc l 1 [:: (0, 0)]%N [:: (0, 0)]%N (fun _ => false) (fun _ => false).
(** an operation without parameters, and one with the parameter number 0 *)
Definition const (o : op) : pop op := mkPop [::] true (fun _ => o).
Definition q0 : Q := QArith_base.Qmake Z0 xH.
Definition var0 : pexpr := mkExpr [:: 0%N] (fun a => a 0%N).
Definition with_var (f : Q -> op) : pop op := mkPop [:: PSym var0] true (fun l => f (List.hd q0 l)).
Definition with_num (x : Q) (f : Q -> op) : pop op := mkPop [:: PNum x] true (fun l => f (List.hd q0 l)).

Definition diag (f : C) : mat := mx (fun x y => if x == y then (if x ord0 then f else 1) else 0).
Lemma basis1 (x y : basis [finType of 'I_1]) : (x == y) = (x ord0 == y ord0).
Proof. by apply/eqP/eqP => [-> //|e]; apply/ffunP => i; rewrite (ord1 i). Qed.
Lemma Pg_sem f L : sem_op L (Pg f) = diag f :> mat.
Proof.
apply: mxP => x y; rewrite /= /gmx !entry_mx /gker /= /pmat /= (ord1 (L 0%N)) basis1; case: forallP => // -[] q; by rewrite (ord1 q) inE eqxx.
Qed.
Lemma diag_mul f g : diag f *m diag g = diag (f * g) :> mat.
Proof.
apply: mxP => x z; rewrite entry_mul (bigD1 x) //= big1 ?addr0.
  by rewrite !entry_mx eqxx; case: (x == z); rewrite ?mulr0 //; case: (x ord0); rewrite ?mulr1.
by move=> y /negbTE N; rewrite !entry_mx eq_sym N mul0r.
Qed.
Lemma diag_1 : diag 1 = 1%:M. Proof. by apply: mxP => x y; rewrite entry_mx entry_1; case: (x == y); case: (x ord0). Qed.
Lemma one_qubit_V (l : list op) V : realises (as_circuit 0 (one_qubit l)) V <-> V = sem_ops (c_layout _ _ _ (as_circuit 0 (one_qubit l))) l.
Proof.
split=> [[s [_ _ ->]]|->].
  have -> : s = 1%g by apply/permP => i; rewrite !ord1.
  by rewrite Pm_1 mul1mx.
by exists 1%g; split=> [i v _|q _|]; [rewrite !ord1|rewrite !ord1|rewrite Pm_1 mul1mx].
Qed.
Lemma no_common (l1 l2 : list op) : common_ancillaries 0 (one_qubit l1) (one_qubit l2) = set0.
Proof. by apply/setP => q; rewrite !inE /= (ord1 q). Qed.
Lemma agree_1 (l1 l2 : list op) w : agree 0 w (one_qubit l1) (one_qubit l2) <->
  sem_ops (c_layout _ _ _ (as_circuit 0 (one_qubit l1))) l1 = w *: sem_ops (c_layout _ _ _ (as_circuit 0 (one_qubit l2))) l2 :> mat.
Proof.
split=> [[V1 [V2 [/one_qubit_V -> /one_qubit_V ->]]]|E]; first by rewrite /agree_up_to no_common proj0_none !mulmx1.
by do 2!eexists; split; [apply/one_qubit_V; reflexivity|apply/one_qubit_V; reflexivity|rewrite /agree_up_to no_common proj0_none !mulmx1].
Qed.
Lemma differ_1 (l1 l2 : list op) : differ 0 (one_qubit l1) (one_qubit l2) <->
  forall w, sem_ops (c_layout _ _ _ (as_circuit 0 (one_qubit l1))) l1 <> w *: sem_ops (c_layout _ _ _ (as_circuit 0 (one_qubit l2))) l2 :> mat.
Proof.
split=> [[V1 [V2 [/one_qubit_V -> /one_qubit_V -> H]]] w E|H].
  by apply: (H w); rewrite /agree_up_to no_common proj0_none !mulmx1.
by do 2!eexists; split; [apply/one_qubit_V; reflexivity|apply/one_qubit_V; reflexivity|rewrite /agree_up_to no_common proj0_none => w; rewrite !mulmx1; exact: H].
Qed.
Lemma diag_differ f g : f != g -> forall w, diag f <> w *: diag g :> mat.
Proof.
move=> N w E; move/eqP: N; apply.
have e0 := congr1 (fun M : mat => Qubits.entry M [ffun _ => false] [ffun _ => false]) E.
have e1 := congr1 (fun M : mat => Qubits.entry M [ffun _ => true] [ffun _ => true]) E.
move: e0 e1; rewrite /= !entry_scale !entry_mx !eqxx !ffunE mulr1 => <-; by rewrite mul1r.
Qed.
Lemma had_differ f : forall (L : nat -> 'I_1) w, sem_op L (Had C 0) <> w *: diag f :> mat.
Proof.
move=> L w E; have := congr1 (fun M : mat => Qubits.entry M [ffun _ => false] [ffun _ => true]) E.
rewrite /= entry_scale /gmx !entry_mx /gker /=.
have -> : ([ffun _ => false] == [ffun _ => true] :> basis [finType of 'I_1]) = false by rewrite basis1 !ffunE.
rewrite mulr0 /hmat /= !ffunE /ekernel /=; case: forallP => [_|[]].
  by move/eqP; rewrite mul1r invr_eq0 sqrtC_eq0 pnatr_eq0.
by move=> q; rewrite (ord1 q) (ord1 (L 0%N)) inE eqxx.
Qed.

(** ** checking two circuits of gates on one qubit: a manager with the simulation and the alternating checker answers correctly *)
Definition gate0 (o : op) : Prop := exists m : seq bool -> seq bool -> C, let g := Gate [::] [:: 0%N] m false : gate in o = OGate nat gate g /\ unitary_matrix g.
Local Notation nothing := (fun (_ : pass) (c : circ op) => c).
Local Notation no := (fun _ : circ op => false).
Local Notation yes := (fun _ : circ op => true).
Lemma one_good (l : list op) : (forall o, List.In o l -> gate0 o) -> good_circuit 0 (one_qubit l).
Proof.
move=> H; split.
- by apply: (@idq_wf C l 1).
- move=> o p Ho; have [m [-> _]] := H o Ho; rewrite /on_qubits /= inE => /eqP ->; by exists 0%N.
- by [].
- by [].
- move=> o /H [m [-> um]] /=; by apply: unitary_matrix_gate.
Qed.

Lemma one_checked (l1 l2 : list op) : (forall o, List.In o l1 -> gate0 o) -> (forall o, List.In o l2 -> gate0 o) ->
  (exists d1 d2 s, construct (@on_qubits C) nothing no no yes true construct_cfg (one_qubit l1) (one_qubit l2) = PVal (d1, d2, s) /\
    [/\ q_n d1 = 1%N, [/\ s_maxSims s = 2%num, Passes.s_alt s = true & Passes.s_con s = false], primary d1 = 1%N, q_lay d1 = [:: (0, 0)]%N /\ q_lay d2 = [:: (0, 0)]%N & q_ops d1 = l1 /\ q_ops d2 = l2]) ->
  exists v V1 V2, [/\ checked 0 construct_cfg (one_qubit l1) (one_qubit l2) v, realises (as_circuit 0 (one_qubit l1)) V1, realises (as_circuit 0 (one_qubit l2)) V2 &
    right_answer (common_ancillaries 0 (one_qubit l1) (one_qubit l2)) V1 V2 v].
Proof.
move=> h1 h2 [d1 [d2 [s [EC [En [Es Esa Esc] Ep [L1 L2] [O1 O2]]]]]].
have G1 := one_good h1; have G2 := one_good h2.
have KM p : List.In p (schedule (opts construct_cfg) false) -> keeps_meaning 0 (nothing p) by move=> _ c G; split.
have AG : ancillaries_agree (one_qubit l1) (one_qubit l2) by split.
have ex : exact_configured construct_cfg by left.
have [V1 [V2 [R1 R2 H]]] := @C68_sequential_run_decides C nothing no no yes true construct_cfg 0 0 _ _ d1 d2 s G1 G2 AG erefl erefl KM ex EC erefl En 0%N.
have [o1 [o2 [EO EP _ _]]] := construct_parts EC.
have [[H1 n1 an1 r1] [H2 n2 an2 r2]] := passes_meaning G1 G2 erefl erefl KM EO.
have [W1 a1 g1 _ U1] := H1; have [W2 a2 g2 _ U2] := H2.
have En' : maxn (q_n o1) (q_n o2) = 1%N by rewrite n1 n2.
have [_ [F [[Wf1 Wf2] _ _ _ _]]] := C64_operators_kept W1 W2 a1 a2 g1 g2 EP En' En.
have U : unitary_circuit (as_circuit 0 d1).
  move=> o; rewrite /= O1 => /h1 [m [-> um]] /=; by apply: unitary_matrix_gate.
pose q := demo_package C [finType of 'I_1] nat_eqType; pose sch := Schemes SOneToOne SOneToOne SOneToOne.
have gs : good_schemes q (as_circuit 0 d1) (as_circuit 0 d2) sch.
  split; split=> //; split; first exact: demo_equals_exact.
  apply: elided_placement.
  - by move=> o; rewrite /= O1 => /h1 [m [-> _]].
  - by move=> o; rewrite /= O2 => /h2 [m [-> _]].
  - by move=> o k _ _; rewrite /= L1 L2.
have Lp : (primary d1 <= 63)%coq_nat by rewrite Ep; lia.
have [cl hc] := clifford_ex C 0.
have [ch [a [k [sm D]]]] := @describes_ex C [finType of 'I_1] nat_eqType 0%N _ _ Wf1 Wf2 U q sch (own_ancillaries 0 d1) (own_ancillaries 0 d2) 1 gs _ _ (ket cl) (generator_env d1 d2).
have St := @generator_env_of C d1 d2 ch a k sm Lp.
pose e := with_verdicts (generator_env d1 d2) ch a k sm.
have GS := C68_stimuli_suffice EC erefl St cunif_fair cunif_range (erefl : g_used (mkGen 1%num nil) = nil) ltac:(discriminate).
have [X Y] := demo_constructed e s (mkGen 1%num nil) erefl erefl erefl erefl erefl erefl Esa Esc Es GS.
have [ma' [Rn Ra]] := H q sch 1 (demo_exact C _ _) gs ltr01 N cword cunif ComputationalBasis e cl hc St D X 3%N (fun _ ma => Returned ma) _ Y.
exists (SeqFlow.r_eq (m_res ma')), V1, V2; split=> //.
exists nothing, no, no, yes, true, 0%N, d1, d2, s; split; first by split.
split; first by split.
move=> p1 p2 A1 A2 c; exists q, sch, 1, 0%N; split; first by split; [exact: demo_exact|exact: gs|exact: ltr01].
exists N, cword, cunif, ComputationalBasis, e, cl; split; first by split.
by left; exists 3%N, (fun _ ma => Returned ma), (fresh (constructed construct_cfg s) (mkGen 1%num nil) (QArith_base.Qmake Z0 xH)), ma'; split=> //; have [[]] := Y.
Qed.

(* what such a check answers *)
Lemma no_anc_proj (l1 l2 : list op) : proj0 C (common_ancillaries 0 (one_qubit l1) (one_qubit l2)) = 1%:M.
Proof. by rewrite no_common proj0_none. Qed.
Lemma pmat_unitary f : `|f| = 1 -> unitary_matrix (pgate f).
Proof.
move=> n1; have ff : f * f^* = 1 by rewrite -normCK n1 expr1n.
split=> //= a c; case: a => [|a [|? ?]] // _; case: c => [|c [|? ?]] // _.
rewrite (sum1tuple (fun b => pmat f [:: a] b * (pmat f [:: c] b)^* )) /pmat /=.
by case: a; case: c; rewrite /= ?conjC1 ?conjC0 ?mulr0 ?mul0r ?mulr1 ?addr0 ?add0r.
Qed.
Lemma Pg_gate0 f : `|f| = 1 -> gate0 (Pg f).
Proof. by move=> H; exists (pmat f); split=> //; exact: pmat_unitary. Qed.
Lemma Had_gate0 : gate0 (Had C 0).
Proof. by exists (@hmat C); split=> //; split=> //=; exact: hmat_unitary. Qed.
Lemma sem_single (L : nat -> 'I_1) o : sem_ops L [:: o] = sem_op L o :> mat. Proof. by rewrite /sem_ops /= mul1mx. Qed.
End D.
