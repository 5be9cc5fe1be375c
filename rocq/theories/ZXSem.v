(** ZX-diagrams: a concrete form and their meaning as operators, for the statements about the ZX checker. Definitions only.

    mqt-core's ZXDiagram (not in /repo) stores vertices, edges, ordered inputs and outputs and a global phase; its rewrite rules are
    assumed, not modelled: the theorems take as hypothesis that the reduced diagram means the same as the miter up to a non-zero
    factor. *)
From mathcomp Require Import all_ssreflect all_fingroup all_algebra.
From Verif Require Import Criterion Perm PermSpec ZX ZXSpec DDCheck DDSpec Qubits DDSem.
Set Implicit Arguments.
Unset Strict Implicit.
Unset Printing Implicit Defensive.
Import GRing.Theory Num.Theory.
Local Open Scope ring_scope.

Section ZXSem.
Variables (C : numClosedFieldType) (n m : nat) (V : finType).

(** boundary vertex, Z-spider, X-spider; the spiders with their phase factor exp(i alpha) *)
Inductive vkind := Boundary | ZSpider (a : C) | XSpider (a : C).
(** a diagram with [n] inputs, [n] outputs and [m] edges; an edge has two ends and may be a Hadamard edge; [qdata] is the qubit
    stored with a vertex (getVData) *)
Record diagram := Diagram {
  kind : V -> vkind;
  edge : 'I_m -> V * V * bool;
  input : 'I_n -> V;
  output : 'I_n -> V;
  qdata : V -> option nat }.

Definition is_x (k : vkind) : bool := if k is XSpider _ then true else false.
Definition amp (k : vkind) (b : bool) : C :=
  match k with Boundary => 1 | ZSpider a | XSpider a => if b then a else 1 end.
(** an edge contributes a Hadamard matrix entry if it is a Hadamard edge or connects to exactly one X-spider, ... *)
Definition ekernel (had : bool) (b c : bool) : C := if had then (if b && c then -1 else 1) / sqrtC 2%:R else (b == c)%:R.
Definition eweight (D : diagram) (k : 'I_m) (b : {ffun V -> bool}) : C :=
  let: (u, v, h) := edge D k in ekernel (h (+) is_x (kind D u) (+) is_x (kind D v)) (b u) (b v).
(** the operator of a diagram: sum over all labellings of the vertices that agree with the given basis states at the boundary *)
Definition zx_sem (D : diagram) : mat C [finType of 'I_n] :=
  mx (fun x y => \sum_(b : {ffun V -> bool} | [forall i, (b (input D i) == y i) && (b (output D i) == x i)])
                   (\prod_(v : V) amp (kind D v) (b v)) * \prod_(k < m) eweight D k b).

Definition touches (D : diagram) (k : 'I_m) (v : V) : bool := ((edge D k).1.1 == v) || ((edge D k).1.2 == v).
(** inputs and outputs are distinct boundary vertices, each with exactly one incident edge (not a loop); they carry their index *)
Definition wf_diagram (D : diagram) : Prop :=
  [/\ injective (input D), injective (output D), forall i j, input D i != output D j,
      forall i, kind D (input D i) = Boundary /\ kind D (output D i) = Boundary &
      [/\ forall k, (edge D k).1.1 != (edge D k).1.2,
          forall i, exists k, touches D k (input D i) /\ forall k', touches D k' (input D i) -> k' = k,
          forall i, exists k, touches D k (output D i) /\ forall k', touches D k' (output D i) -> k' = k,
          forall i, qdata D (input D i) = Some (nat_of_ord i) &
          forall i, qdata D (output D i) = Some (nat_of_ord i)]].

(** what run() reads: the i-th input, its incident edge, and the vertex at the other end *)
Definition wire_view (D : diagram) (i : 'I_n) : etype * option nat * option nat :=
  match [pick k | touches D k (input D i)] with
  | None => (ESimple, None, None)
  | Some k => let: (u, v, h) := edge D k in
              (if h then EHadamard else ESimple, qdata D (input D i), qdata D (if u == input D i then v else u))
  end.
Definition view (phase0 : bool) (D : diagram) : miter :=
  mkMiter m n (fun i => if insub i is Some j then wire_view D j else (ESimple, None, None)) phase0.

(** the map [r] of a std::map is the permutation [s] *)
Definition as_perm (r : qmap) (s : {perm 'I_n}) : Prop := forall i : 'I_n, maps r i (s i).

(** [K] acts only on the qubits in [T]: it does not touch the others and does not depend on them *)
Definition acts_only_on (T : {set 'I_n}) (K : mat C [finType of 'I_n]) : Prop :=
  (forall (x y : basis [finType of 'I_n]) q, q \notin T -> x q != y q -> entry K x y = 0) /\
  forall (x y x' y' : basis [finType of 'I_n]), {in T, x =1 x'} -> {in T, y =1 y'} -> (forall q, q \notin T -> x q = y q) -> (forall q, q \notin T -> x' q = y' q) ->
    entry K x y = entry K x' y'.
End ZXSem.
Arguments Boundary {C}.

(** ** circuits on logical qubits [0 .. n-1], physical qubits are numbers *)
Section Circuits.
Variables (C : numClosedFieldType) (n : nat).
Local Notation Lg := [finType of 'I_n].
Local Notation gate := (gate C nat_eqType).
Local Notation circuit := (circuit nat_eqType Lg gate).
(** initialLayout and outputPermutation as the maps that ZXChecker.cpp:169-172 reads *)
Definition layout_map (c : circuit) : qmap := [seq (i, nat_of_ord (c_layout _ _ _ c i)) | i <- c_keys _ _ _ c].
Definition output_map (c : circuit) : qmap := [seq (e.1, nat_of_ord e.2) | e <- c_output _ _ _ c].
(** both maps have ascending keys and one entry for each of the [n] qubits *)
Definition full_maps (c : circuit) : Prop :=
  [/\ is_map (layout_map c), is_map (output_map c), size (c_keys _ _ _ c) = n & size (c_output _ _ _ c) = n].
(** the diagram [D] with the global phase factor [ph] stands for the operator [M] up to a positive factor (mqt-core does not track
    the norm) *)
Definition denotes m (V : finType) (D : diagram C n m V) (ph : C) (M : mat C Lg) : Prop :=
  `|ph| = 1 /\ exists2 r : C, 0 < r & ph *: zx_sem D = r *: M.
(** nothing but the ends of the wires is left *)
Definition no_isolated m (V : finType) (D : diagram C n m V) : Prop :=
  forall v, (exists i, v = input D i) \/ (exists i, v = output D i).
(** the operator of the circuit's operations on the wires given by the initial layout (buildFunctionality, mqt-core, recalled) *)
Definition wire_op (c : circuit) : mat C Lg := sem_ops (c_layout _ _ _ c) (c_ops _ _ _ c).
(** the outputs of circuit [c] whose wire has an index at which both circuits' garbage tests succeed *)
Definition skipped_outputs (g1 g2 : nat -> bool) (c : circuit) : {set 'I_n} :=
  [set q | has (fun e => [&& e.2 == q, g1 (c_layout _ _ _ c e.1) & g2 (c_layout _ _ _ c e.1)]) (c_output _ _ _ c)].
(** the checker's answer for two such circuits, given the reduced diagram with global phase factor [ph] *)
Definition zx_answer m (V : finType) (nd anc done : bool) (g1 g2 : nat -> bool) (c1 c2 : circuit) (D : diagram C n m V) (ph : C) : zres :=
  zx_run nd anc done g1 g2 (output_map c1) (layout_map c1) n (output_map c2) (layout_map c2) n (view (ph == 1) D).
End Circuits.
