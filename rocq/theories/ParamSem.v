(** Vocabulary of C70: what the answer for parameterised circuits is about. Definitions only. *)
From Coq Require Import BinNums NArith List Arith QArith.
From mathcomp Require Import all_ssreflect all_fingroup all_algebra.
From Verif Require Import Criterion Config SeqFlow SeqSpec VerdictSpec ParFlow ParSpec Perm Prep PrepSpec Passes PassesSpec PrepSem StateGen Stim StimSpec StimSem
  Schemes DDCheck DDSpec Qubits DDSem DDFlow ZX ZXSpec ZXSem Construct PyParam PyParamSpec ParamInst.
Set Implicit Arguments.
Unset Strict Implicit.
Unset Printing Implicit Defensive.
Import GRing.Theory Num.Theory.
Local Open Scope ring_scope.

Section Sem.
Variable C : numClosedFieldType.
Local Notation gate := (gate C nat_eqType).
Local Notation op := (op nat gate).
Local Notation pcirc := (circ (pop op)).
(** two circuits, seen on [n.+1] qubits: they do not even agree up to a factor (on inputs with zeros on common ancillaries); they agree up
    to the factor [w] *)
Definition differ (n : nat) (c1 c2 : circ op) : Prop :=
  exists V1 V2, [/\ realises (as_circuit n c1) V1, realises (as_circuit n c2) V2 & forall w, ~ agree_up_to (common_ancillaries n c1 c2) w V1 V2].
Definition agree (n : nat) (w : C) (c1 c2 : circ op) : Prop :=
  exists V1 V2, [/\ realises (as_circuit n c1) V1, realises (as_circuit n c2) V2 & agree_up_to (common_ancillaries n c1 c2) w V1 V2].
(** the answer [v] of a check of [c1] against [c2] is true, as far as it is definitive *)
Definition honest (n : nat) (c1 c2 : circ op) (v : criterion) : Prop :=
  exists V1 V2, [/\ realises (as_circuit n c1) V1, realises (as_circuit n c2) V2 & definitive v -> true_verdict (common_ancillaries n c1 c2) V1 V2 v].
(** [v] is the answer of check_instantiated (parameterized.py:82-91) for [c1] and [c2] with configuration [cfg]: a manager is constructed, the
    ZX checker disabled, and a sequential or parallel run of the others - interrupted by a timeout or not - ends with the verdict [v] *)
Definition checked (n : nat) (cfg : config) (c1 c2 : circ op) (v : criterion) : Prop :=
  exists (apply : pass -> circ op -> circ op) isEmpty isDynamic varfree nd m c1' c2' s,
  [/\ good_circuit n c1, good_circuit n c2, ancillaries_agree c1 c2, isDynamic c1 = false & isDynamic c2 = false] /\
  [/\ forall p, List.In p (schedule (opts cfg) false) -> keeps_meaning n (apply p),
      construct (@on_qubits C) apply isEmpty isDynamic varfree nd cfg c1 c2 = PVal (c1', c2', s), maxn (q_n c1) (q_n c2) = n.+1 & q_n c1' = m.+1] /\
  let p1 := as_circuit m c1' in let p2 := as_circuit m c2' in let A1 := own_ancillaries m c1' in let A2 := own_ancillaries m c2' in
  let c := setZXChecker false (constructed cfg s) in
  exists (q : package C [finType of 'I_m.+1] nat_eqType) (sch : schemes) (eps : C) (zero : nat),
  [/\ exact_package q, good_schemes q p1 p2 sch & 0 < eps] /\
  exists (MT : Type) (word : MT -> N * MT) unif t (e : env stimulus (gen MT)) (clifford : stab -> vec C [finType of 'I_m.+1]),
  [/\ clifford_states clifford, stimuli_of word unif c1' c2' t e & describes q sch zero p1 p2 A1 A2 eps (ket clifford) e] /\
  ((exists fuel pf ma ma', [/\ m_cfg ma = c, choose_flow e c = FSequential, SeqFlow.run fuel pf e ma = Returned ma' & v = SeqFlow.r_eq (m_res ma')]) \/
   (exists g pp x, [/\ sane_sims c, enough_threads e c, par_returned e c g pp x & v = SeqFlow.r_eq (p_res x)])).

(** the pairs of circuits that the flow checks: all parameters zero (as far as possible), random phases in rounds [0 .. k-1], random values.
    [pinv]: numpy's pseudo-inverse, [p]: number of parameters, [tol]: tolerance, [drawn i]: phases drawn in round [i], [rnd]: values
    drawn for the last check (parameterized.py:94-106, 169-180, 196-213) *)
Record sampling := Sampling { s_pinv : list (list Q) -> list Q -> nat -> Q; s_p : nat; s_tol : Q; s_drawn : nat -> list Q; s_rnd : nat -> Q }.
Definition zero_pair (s : sampling) (c1 c2 : pcirc) : circ op * circ op :=
  let a := zero_values (s_pinv s) (s_p s) c1 c2 in (bind_rounded (s_tol s) a c1, bind_rounded (s_tol s) a c2).
Definition phase_pair (s : sampling) (c1 c2 : pcirc) (i : nat) : circ op * circ op :=
  let a := phase_values (s_pinv s) (s_p s) c1 c2 (s_drawn s i) in (bind_rounded (s_tol s) a c1, bind_rounded (s_tol s) a c2).
Definition random_pair (s : sampling) (c1 c2 : pcirc) : circ op * circ op := (bind (s_rnd s) c1, bind (s_rnd s) c2).
(** in order, with [k] additional instantiations *)
Definition sampled_pairs (s : sampling) (c1 c2 : pcirc) (k : nat) : seq (circ op * circ op) :=
  zero_pair s c1 c2 :: List.app (map (phase_pair s c1 c2) (iota 0 k)) [:: random_pair s c1 c2].
(** the instantiated checks of the environment are checks of these pairs; they tell the truth about them *)
Definition checks_made (n : nat) (cfg : config) (s : sampling) (c1 c2 : pcirc) (e : penv) : Prop :=
  [/\ checked n cfg (zero_pair s c1 c2).1 (zero_pair s c1 c2).2 (r_eq (PyParam.zero e)),
      forall i, checked n cfg (phase_pair s c1 c2 i).1 (phase_pair s c1 c2 i).2 (r_eq (PyParam.phase e i)) &
      checked n cfg (random_pair s c1 c2).1 (random_pair s c1 c2).2 (r_eq (PyParam.random e))].
Definition honest_checks (n : nat) (s : sampling) (c1 c2 : pcirc) (e : penv) : Prop :=
  [/\ honest n (zero_pair s c1 c2).1 (zero_pair s c1 c2).2 (r_eq (PyParam.zero e)),
      forall i, honest n (phase_pair s c1 c2 i).1 (phase_pair s c1 c2 i).2 (r_eq (PyParam.phase e i)) &
      honest n (random_pair s c1 c2).1 (random_pair s c1 c2).2 (r_eq (PyParam.random e))].

(** rounding changes nothing at the values [a]: what is below the tolerance is zero anyway *)
Definition nothing_to_round (tol : Q) (a : nat -> Q) (c : pcirc) : Prop :=
  forall o x, List.In o (q_ops c) -> List.In x (values_of a o) -> Qlt (Qabs.Qabs x) tol -> Qeq x 0.
(** the operations depend on the numbers only, not on how they are written *)
Definition depends_on_numbers (c : pcirc) : Prop :=
  forall o l l', List.In o (q_ops c) -> List.Forall2 Qeq l l' -> o_build o l = o_build o l'.
(** the values used by the instantiations with rounding *)
Definition solved_values (s : sampling) (c1 c2 : pcirc) (k : nat) (a : nat -> Q) : Prop :=
  a = zero_values (s_pinv s) (s_p s) c1 c2 \/ exists2 i, (i < k)%N & a = phase_values (s_pinv s) (s_p s) c1 c2 (s_drawn s i).

(** ** the symbolic check *)
(** the operations act on the same qubits whatever the values of the parameters are; [actsOn]: what the constructor sees *)
Definition same_qubits (actsOn : pop op -> nat -> bool) (c : pcirc) : Prop :=
  forall o, List.In o (q_ops c) -> forall a q, on_qubits (o_build o (values_of a o)) q = actsOn o q.
(** at every choice of values a proper circuit of unitary gates *)
Definition good_for_all_values (n : nat) (c : pcirc) : Prop :=
  forall a, [/\ PrepSpec.wf_circ (bind a c), acts_inside (bind a c), garbage_unread (bind a c) & unitary_circuit (as_circuit n (bind a c))].
(** both permutations of the circuit have one entry for each of the [n.+1] qubits (they do not depend on the values) *)
Definition reads_all (n : nat) (c : pcirc) : Prop := full_maps (as_circuit n (bind zero_map c)).
(** a diagram whose phases depend on the values of the parameters; inputs, outputs and edges do not (mqt-core's PiExpression) *)
Record symbolic_diagram (n m : nat) (V : finType) := SymbolicDiagram {
  sd_kind : (nat -> Q) -> V -> vkind C; sd_edge : 'I_m -> V * V * bool; sd_input : 'I_n -> V; sd_output : 'I_n -> V; sd_qdata : V -> option nat }.
Definition at_values n m V (D : symbolic_diagram n m V) (a : nat -> Q) : diagram C n m V :=
  Diagram (sd_kind D a) (sd_edge D) (sd_input D) (sd_output D) (sd_qdata D).
(** the verdict recorded in the flow's environment is what ZXChecker::run (ZXChecker.cpp:55-115) answers without interruption for some
    reduced symbolic diagram that stands for D2 D1^+ at every choice of values. [phase0]: its global phase is found to be zero, i.e. zero
    for all values. A diagram accepted as equivalent contains nothing but the ends of the wires, whatever the values *)
Definition zx_describes_symbolically (n : nat) (c1 c2 : pcirc) (Stim Gen : Type) (e : env Stim Gen) : Prop :=
  e_transformable e = true ->
  exists m (V : finType) (D : symbolic_diagram n.+1 m V) (ph : (nat -> Q) -> C) (phase0 : bool),
    [/\ forall a, wf_diagram (at_values D a),
        forall a, denotes (at_values D a) (ph a) (wire_op (as_circuit n (bind a c2)) *m adj (wire_op (as_circuit n (bind a c1)))),
        phase0 = true -> forall a, ph a = 1,
        zcrit (e_ancilla e) (e_zx e) = Equivalent \/ zcrit (e_ancilla e) (e_zx e) = EquivalentUpToGlobalPhase -> forall a, no_isolated (at_values D a) &
        forall a, zx_run (e_ndebug e) (e_ancilla e) false (q_gar c1) (q_gar c2)
          (output_map (as_circuit n (bind a c1))) (layout_map (as_circuit n (bind a c1))) n.+1
          (output_map (as_circuit n (bind a c2))) (layout_map (as_circuit n (bind a c2))) n.+1 (view phase0 (at_values D a))
          = ZVerdict (zcrit (e_ancilla e) (e_zx e))].
End Sem.
