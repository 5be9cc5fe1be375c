(** Parameterised circuits on one qubit whose instantiations are checked by actual runs: counterexamples and non-vacuity for C70. *)
From Coq Require Import BinNums NArith List Arith QArith Qabs Lia.
From mathcomp Require Import all_ssreflect all_fingroup all_algebra.
From Verif Require Import Criterion Config SeqFlow SeqSpec SeqDemo VerdictSpec ParFlow ParSpec Perm PermSpec Prep PrepSpec Passes PassesSpec Schemes DDCheck DDSpec Qubits QubitsProofs DDSem DDFlow PrepSem
  ParDecide ZXSem ZXDemo ZXDemoProofs EndToEndProofs Construct ConstructDemo DDSemProofs DDSemProofs2 ZXProofs ZXSpec ZX ZXSemProofs2 PyParam PyParamSpec ParamInst ParamSem ParamProofs2 ParamDemo.
Set Implicit Arguments.
Unset Strict Implicit.
Unset Printing Implicit Defensive.
Import GRing.Theory Num.Theory.
Local Open Scope ring_scope.

Section D.
Variable C : numClosedFieldType.
Local Notation gate := (gate C nat_eqType).
Local Notation op := (op nat gate).
Local Notation pcirc := (circ (pop op)).
Local Notation mat := (mat C [finType of 'I_1]).
Local Notation nothing := (fun (_ : pass) (c : circ op) => c).
Local Notation no := (fun _ : circ op => false).
Local Notation yes := (fun _ : circ op => true).
Local Notation lay := (c_layout _ _ _ (as_circuit 0 (one_qubit (@nil op)))).
Definition constructs (l1 l2 : list op) : Prop :=
  exists d1 d2 s, construct (@on_qubits C) nothing no no yes true construct_cfg (one_qubit l1) (one_qubit l2) = PVal (d1, d2, s) /\
    [/\ q_n d1 = 1%N, [/\ s_maxSims s = 2%num, Passes.s_alt s = true & Passes.s_con s = false], primary d1 = 1%N, q_lay d1 = [:: (0, 0)]%N /\ q_lay d2 = [:: (0, 0)]%N & q_ops d1 = l1 /\ q_ops d2 = l2].
Lemma checked_eq (l1 l2 : list op) : (forall o, List.In o l1 -> gate0 o) -> (forall o, List.In o l2 -> gate0 o) -> constructs l1 l2 ->
  sem_ops lay l1 = sem_ops lay l2 :> mat -> checked 0 construct_cfg (one_qubit l1) (one_qubit l2) Equivalent.
Proof.
move=> h1 h2 hc E; have [v [V1 [V2 [K /one_qubit_V e1 /one_qubit_V e2 [[_ R] _ _]]]]] := one_checked h1 h2 hc.
by rewrite -(R _) // e1 e2 -[sem_ops _ l1]/(sem_ops lay l1) E.
Qed.
Lemma checked_ne (l1 l2 : list op) : (forall o, List.In o l1 -> gate0 o) -> (forall o, List.In o l2 -> gate0 o) -> constructs l1 l2 ->
  (forall w, sem_ops lay l1 <> w *: sem_ops lay l2 :> mat) -> checked 0 construct_cfg (one_qubit l1) (one_qubit l2) NotEquivalent.
Proof.
move=> h1 h2 hc E; have [v [V1 [V2 [K /one_qubit_V e1 /one_qubit_V e2 [_ _ [_ R]]]]]] := one_checked h1 h2 hc.
by rewrite -(R _) // => w; rewrite no_anc_proj !mulmx1 e1 e2; exact: E.
Qed.
Definition sampling0 (tol : Q) : sampling := Sampling (fun _ _ _ => q0) 1 tol (fun _ => [:: q0]) (fun _ => q0).
Definition result0 (v : criterion) : presult := mkPResult v q0 q0 q0 q0 0.
Definition env0 (v : criterion) : penv := mkPEnv (result0 NoInformation) q0 (result0 v) (fun _ => q0) (fun _ => result0 v) (result0 v).
Lemma sampled0 tol (c1 c2 : pcirc) v : checked 0 construct_cfg (bind_rounded tol (fun _ => q0) c1) (bind_rounded tol (fun _ => q0) c2) v ->
  checked 0 construct_cfg (bind (fun _ => q0) c1) (bind (fun _ => q0) c2) v -> checks_made 0 construct_cfg (sampling0 tol) c1 c2 (env0 v).
Proof. by move=> h h'; split. Qed.

(** ** a gate that is the identity except at the value 1 *)
Definition spike (x : Q) : op := Pg (if Qeq_bool x (Qmake 1 1) then -1 : C else 1).
Definition sp1 : pcirc := one_qubit [:: with_var spike].
Definition sp2 : pcirc := one_qubit [:: const (Pg (1 : C))].
Lemma norm_spike x : gate0 (spike x). Proof. by apply: Pg_gate0; case: ifP; rewrite ?normrN normr1. Qed.
Lemma spike_made : checks_made 0 construct_cfg (sampling0 (Qmake 1 1000)) sp1 sp2 (env0 Equivalent).
Proof.
have K : checked 0 construct_cfg (one_qubit [:: Pg (1 : C)]) (one_qubit [:: Pg (1 : C)]) Equivalent.
  apply: checked_eq => //.
  - by move=> o [<-|[]]; apply: Pg_gate0; rewrite normr1.
  - by move=> o [<-|[]]; apply: Pg_gate0; rewrite normr1.
  - by eexists _, _, _; split; [vm_compute; reflexivity|split].
by apply: sampled0; exact: K.
Qed.
Lemma spike_differ : differ 0 (bind (fun _ => Qmake 1 1) sp1) (bind (fun _ => Qmake 1 1) sp2).
Proof.
have D : differ 0 (one_qubit [:: Pg (-1 : C)]) (one_qubit [:: Pg (1 : C)]).
  apply/differ_1 => w; rewrite !sem_single !Pg_sem; apply: diag_differ.
  by rewrite -subr_eq0 -opprD oppr_eq0 -mulr2n pnatr_eq0.
exact: D.
Qed.

(** ** rounding: a phase gate with the values 1, i, -1 at 0, 1/2, 1 and two halves against a whole *)
Definition half (x : Q) : C := if Qeq_bool x (Qmake 1 1) then -1 else if Qeq_bool x (Qmake 1 2) then 'i else 1.
Definition hf1 : pcirc := one_qubit [:: with_num (Qmake 1 2) (fun x => Pg (half x)); with_num (Qmake 1 2) (fun x => Pg (half x)); with_var (fun x => Pg (half x))].
Definition hf2 : pcirc := one_qubit [:: with_num (Qmake 1 1) (fun x => Pg (half x)); with_var (fun x => Pg (half x))].
Lemma half_gate0 x : gate0 (Pg (half x)).
Proof. by apply: Pg_gate0; rewrite /half; case: ifP => _; [rewrite normrN normr1|case: ifP => _; rewrite ?normCi ?normr1]. Qed.
Lemma two_halves x : agree 0 1 (one_qubit [:: Pg 'i; Pg 'i; Pg (half x)]) (one_qubit [:: Pg (-1); Pg (half x)]).
Proof.
apply/agree_1; rewrite scale1r -[LHS]/(1%:M *m sem_op _ (Pg _) *m sem_op _ (Pg _) *m sem_op _ (Pg _)) -[RHS]/(1%:M *m sem_op _ (Pg _) *m sem_op _ (Pg _)).
by rewrite !Pg_sem !mul1mx !diag_mul -mulrA -expr2 sqrCi.
Qed.
Lemma half_agree a : agree 0 1 (bind a hf1) (bind a hf2).
Proof. exact: (two_halves (a 0%N)). Qed.
Definition half_env : penv := mkPEnv (result0 NoInformation) q0 (result0 NotEquivalent) (fun _ => q0) (fun _ => result0 NotEquivalent) (result0 Equivalent).
Lemma half_made : checks_made 0 construct_cfg (sampling0 (Qmake 1 1)) hf1 hf2 half_env.
Proof.
have K1 : checked 0 construct_cfg (one_qubit [:: Pg (1 : C); Pg (1 : C); Pg (1 : C)]) (one_qubit [:: Pg (-1 : C); Pg (1 : C)]) NotEquivalent.
  apply: checked_ne.
  - by move=> o [<-|[<-|[<-|[]]]]; apply: Pg_gate0; rewrite normr1.
  - by move=> o [<-|[<-|[]]]; apply: Pg_gate0; rewrite ?normrN normr1.
  - by eexists _, _, _; split; [vm_compute; reflexivity|split].
  - have S1 : sem_ops lay [:: Pg (1 : C); Pg (1 : C); Pg (1 : C)] = diag 1 :> mat.
      by rewrite -[LHS]/(1%:M *m sem_op lay (Pg _) *m sem_op lay (Pg _) *m sem_op lay (Pg _)) !Pg_sem mul1mx !diag_mul !mulr1.
    have S2 : sem_ops lay [:: Pg (-1 : C); Pg (1 : C)] = diag (-1) :> mat.
      by rewrite -[LHS]/(1%:M *m sem_op lay (Pg _) *m sem_op lay (Pg _)) !Pg_sem mul1mx !diag_mul mul1r.
    rewrite S1 S2; apply: diag_differ.
    by rewrite -subr_eq0 opprK -mulr2n pnatr_eq0.
have K2 : checked 0 construct_cfg (one_qubit [:: Pg ('i : C); Pg ('i : C); Pg (1 : C)]) (one_qubit [:: Pg (-1 : C); Pg (1 : C)]) Equivalent.
  apply: checked_eq.
  - by move=> o [<-|[<-|[<-|[]]]]; apply: Pg_gate0; rewrite ?normCi ?normr1.
  - by move=> o [<-|[<-|[]]]; apply: Pg_gate0; rewrite ?normrN normr1.
  - by eexists _, _, _; split; [vm_compute; reflexivity|split].
  - by have [/(_ (two_halves q0))] := agree_1 [:: Pg ('i : C); Pg ('i : C); Pg (half q0)] [:: Pg (-1 : C); Pg (half q0)] 1; rewrite scale1r.
by split; [exact: K1|move=> i; exact: K1|exact: K2].
Qed.

(** ** a rotation that is H at 0 and a phase gate elsewhere, against a phase gate: the check at 0 refutes *)
Definition turn (x : Q) : op := if Qeq_bool x q0 then Had C 0 else Pg (-1 : C).
Definition tn1 : pcirc := one_qubit [:: with_var turn].
Definition tn2 : pcirc := one_qubit [:: const (Pg (-1 : C))].
Lemma turn_made : checks_made 0 construct_cfg (sampling0 (Qmake 1 1000)) tn1 tn2 (env0 NotEquivalent).
Proof.
have K : checked 0 construct_cfg (one_qubit [:: Had C 0]) (one_qubit [:: Pg (-1 : C)]) NotEquivalent.
  apply: checked_ne.
  - by move=> o [<-|[]]; exact: Had_gate0.
  - by move=> o [<-|[]]; apply: Pg_gate0; rewrite normrN normr1.
  - by eexists _, _, _; split; [vm_compute; reflexivity|split].
  - by move=> w; rewrite !sem_single Pg_sem; exact: had_differ.
by apply: sampled0; exact: K.
Qed.
Lemma turn_depends : depends_on_numbers tn1 /\ depends_on_numbers tn2.
Proof.
split=> o l l' [<-|[]] //= F; case: F => [|x y r r' e _] //=; rewrite /turn.
have -> : Qeq_bool x q0 = Qeq_bool y q0; last by [].
apply/idP/idP => /Qeq_bool_iff h; apply/Qeq_bool_iff; [by rewrite -e|by rewrite e].
Qed.
Lemma turn_rounds k a : solved_values (sampling0 (Qmake 1 1000)) tn1 tn2 k a -> nothing_to_round (Qmake 1 1000) a tn1 /\ nothing_to_round (Qmake 1 1000) a tn2.
Proof. by case=> [->|[i _ ->]]; split=> o x /= [<-|[]] //= [<-|[]]. Qed.

(** ** the symbolic stage: two phase gates in either order *)
Definition seen (o : pop op) (q : nat) : bool := on_qubits (o_build o (values_of zero_map o)) q.
Definition ph1 : pcirc := one_qubit [:: with_var (fun x => Pg (half x)); const (Pg (-1 : C))].
Definition ph2 : pcirc := one_qubit [:: const (Pg (-1 : C)); with_var (fun x => Pg (half x))].
Lemma m1_gate0 : gate0 (Pg (-1 : C)). Proof. by apply: Pg_gate0; rewrite normrN normr1. Qed.
Lemma one_all (l : list (pop op)) : (forall o, List.In o l -> forall vs, gate0 (o_build o vs)) -> good_for_all_values 0 (one_qubit l).
Proof.
move=> H a; have := @one_good C (List.map (fun o => o_build o (values_of a o)) l).
by case=> [o /in_map_iff [p [<- Ip]]|W ai gu dl U]; [exact: H|split].
Qed.
Lemma ph_good : good_for_all_values 0 ph1 /\ good_for_all_values 0 ph2.
Proof. by split; apply: one_all => o /= [<-|[<-|[]]] vs /=; try exact: half_gate0; exact: m1_gate0. Qed.
Lemma ph_qubits : same_qubits seen ph1 /\ same_qubits seen ph2.
Proof. by split=> o /= [<-|[<-|[]]] a q. Qed.
Lemma ph_reads : reads_all 0 ph1 /\ reads_all 0 ph2.
Proof. by split; split=> //; repeat constructor. Qed.
Lemma ph_sem a : wire_op (as_circuit 0 (bind a ph1)) = wire_op (as_circuit 0 (bind a ph2)).
Proof.
have K x : sem_ops lay [:: Pg (half x); Pg (-1 : C)] = sem_ops lay [:: Pg (-1 : C); Pg (half x)] :> mat.
  rewrite -[LHS]/(1%:M *m sem_op lay (Pg _) *m sem_op lay (Pg _)) -[RHS]/(1%:M *m sem_op lay (Pg _) *m sem_op lay (Pg _)).
  by rewrite !Pg_sem !mul1mx !diag_mul mulrC.
exact: K.
Qed.

Definition marked (c : pcirc) (anc gar : nat -> bool) : pcirc := mkCirc (q_ops c) (q_n c) (q_lay c) (q_out c) anc gar.
Lemma ph_describes a1 g1 a2 g2 : zx_describes_symbolically 0 (marked ph1 a1 g1) (marked ph2 a2 g2) (demo_sym ZEquivalent true None).
Proof.
move=> _; pose t : {perm 'I_1} := 1%g.
pose D := SymbolicDiagram (fun (_ : nat -> Q) (_ : [finType of bool * 'I_1]) => @Boundary C) (fun k => ((false, k), (true, t k), false)) (fun i => (false, i)) (fun i => (true, i))
    (fun v => Some (nat_of_ord v.2)).
have ED a : at_values D a = wires_diagram C t (fun _ => false) by [].
have [G1 G2] := ph_good; have [F1 F2] := ph_reads.
have WU a (c : pcirc) : q_n c = 1%N -> good_for_all_values 0 c -> wf_circuit (as_circuit 0 (bind a c)) /\ unitary_circuit (as_circuit 0 (bind a c)).
  move=> E /(_ a) [W ai _ U]; split=> //; apply: PrepSemProofs2.ok_wf => //; apply: PrepSemProofs2.wf_ok => //=; by rewrite E.
have V1 a (c : pcirc) : q_n c = 1%N -> good_for_all_values 0 c -> exists V, realises (as_circuit 0 (bind a c)) V.
  by move=> E G; have [W _] := WU a c E G; have [V [_ [R _]]] := computes_ex 0%N W; exists V.
exists 1%N, [finType of bool * 'I_1], D, (fun _ => 1), true; split=> //.
- by move=> a; rewrite ED; exact: wires_wf.
- move=> a; rewrite ED -[wire_op _]/(wire_op (as_circuit 0 (bind a ph2))) -[in adj _]/(wire_op (as_circuit 0 (bind a ph1))) -ph_sem; split; first exact: normr1.
  exists 1; rewrite ?ltr01 // !scale1r wires_plain // Pm_1.
  have [W U] := WU a ph1 erefl G1; have [V R] := V1 a ph1 erefl G1.
  have := unitary_realises W U R; have [s [_ _ ->]] := R.
  have -> : s = 1%g by apply/permP => i; rewrite !ord1.
  by rewrite Pm_1 mul1mx /unitary => E; rewrite /wire_op E.
- by move=> _ a; rewrite ED; exact: wires_bare.
- move=> a; rewrite ED.
  have [W1 U1] := WU a ph1 erefl G1; have [X1 R1] := V1 a ph1 erefl G1.
  have [W2 U2] := WU a ph2 erefl G2; have [X2 R2] := V1 a ph2 erefl G2.
  have [r1 [s1 [E1 A1 S1 _ _]]] := combined_circuit W1 F1 R1.
  have [r2 [s2 [E2 A2 S2 _ _]]] := combined_circuit W2 F2 R2.
  apply/(run_positive _ _ _ _ _ _ _ _ _ _ _ _ _ _ _ E1 E2); [by left|split=> //; split; last by []].
  split=> // i /ltP lt; right; pose j := Ordinal lt; rewrite -[i]/(nat_of_ord j).
  exists (nat_of_ord j), (nat_of_ord (t j)), (nat_of_ord (s1 j)); split; first exact: wires_view.
  split; first exact: A1.
  suff -> : s1 j = s2 (t j) by exact: A2.
  by rewrite !ord1.
Qed.
End D.
