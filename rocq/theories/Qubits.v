(** Semantics: operators on qubits as complex matrices, gates, circuits and their operators. Definitions only.

    The scalars are any [numClosedFieldType] (e.g. the algebraic numbers [algC]): exact arithmetic, no rounding.
    A basis state of the logical qubits [Lg] is a function [{ffun Lg -> bool}]. *)
From mathcomp Require Import all_ssreflect all_fingroup all_algebra.
From Verif Require Import DDCheck DDSpec.
Set Implicit Arguments.
Unset Strict Implicit.
Unset Printing Implicit Defensive.
Import GRing.Theory Num.Theory.
Local Open Scope ring_scope.

Section Qubits.
Variables (C : numClosedFieldType) (Lg : finType).

(** basis states of the logical qubits *)
Definition basis := {ffun Lg -> bool}.
(** operators on the logical qubits *)
Definition mat := 'M[C]_(#|{: basis}|, #|{: basis}|).
(** state vectors *)
Definition vec := 'cV[C]_#|{: basis}|.

(** the operator with entry [k x y] in row [x] and column [y] *)
Definition mx (k : basis -> basis -> C) : mat := \matrix_(i, j) k (enum_val i) (enum_val j).
(** entry of an operator *)
Definition entry (A : mat) (x y : basis) : C := A (enum_rank x) (enum_rank y).
(** conjugate transpose *)
Definition adj m n (A : 'M[C]_(m, n)) : 'M[C]_(n, m) := (map_mx conjC A)^T.
Definition unitary (A : mat) : Prop := A *m adj A = 1%:M.

(** operator that moves the content of qubit [q] to qubit [s q] *)
Definition Pm (s : {perm Lg}) : mat := mx (fun x y => (y == [ffun q => x (s q)])%:R).

(** projector onto the states with all qubits of [A] in state 0 *)
Definition proj0 (A : {set Lg}) : mat := mx (fun x y => ((x == y) && [forall q in A, ~~ x q])%:R).

(** a gate: controls with polarity, targets, the matrix on the targets; [g_swap]: its type is SWAP (only relevant
    for controlled SWAPs) *)
Variable Ph : eqType.
Record gate := Gate { g_ctrl : seq (Ph * bool); g_tgt : seq Ph; g_mat : seq bool -> seq bool -> C; g_swap : bool }.
Definition g_qubits (g : gate) : seq Ph := map fst (g_ctrl g) ++ g_tgt g.
(** the operator of a gate whose qubit [q] is placed on logical qubit [p q] *)
Definition gker (g : gate) (p : Ph -> Lg) (x y : basis) : C :=
  if all (fun c => x (p c.1) == c.2) (g_ctrl g) then
    if [forall q, (q \notin map p (g_tgt g)) ==> (x q == y q)]
    then g_mat g (map (fun t => x (p t)) (g_tgt g)) (map (fun t => y (p t)) (g_tgt g)) else 0
  else (x == y)%:R.
Definition gmx (g : gate) (p : Ph -> Lg) : mat := mx (gker g p).

(** the DD package in exact arithmetic; the inverse of a gate is its conjugate transpose *)
Definition xpkg : pkg Ph Lg gate mat :=
  mkPkg Ph Lg gate mat 1%:M (fun A B => A *m B)
    (fun inv g p => if inv then adj (gmx g p) else gmx g p)
    (fun a b => Pm (tperm a b)).

Notation op := (op Ph gate).
Notation circuit := (circuit Ph Lg gate).

(** ** what circuits mean, without any tracking of permutations *)
(** operator of an operation when physical qubit [q] is (and stays) on wire [L q]; SWAPs are real SWAPs *)
Fixpoint sem_op (L : Ph -> Lg) (o : op) : mat :=
  match o with
  | OGate g => gmx g L
  | OSwap a b => Pm (tperm (L a) (L b))
  | OComp l => (fix go (l : seq op) : mat := match l with nil => 1%:M | o :: r => go r *m sem_op L o end) l
  end.
Fixpoint sem_ops (L : Ph -> Lg) (l : seq op) : mat :=
  match l with nil => 1%:M | o :: r => sem_ops L r *m sem_op L o end.

(** qubits of an operation *)
Fixpoint op_qubits (o : op) : seq Ph :=
  match o with
  | OGate g => g_qubits g
  | OSwap a b => [:: a; b]
  | OComp l => (fix go (l : seq op) : seq Ph := match l with nil => nil | o :: r => op_qubits o ++ go r end) l
  end.
(** nothing is said about logical qubit [q]: no operation acts on its wire and it occurs in no output *)
Definition untouched (c : circuit) (q : Lg) : Prop :=
  q \notin map snd (c_output _ _ _ c) /\
  forall i, i \in c_keys _ _ _ c -> c_layout _ _ _ c i = q ->
    i \notin map fst (c_output _ _ _ c) /\ forall o, List.In o (c_ops _ _ _ c) -> i \notin op_qubits o.

(** [V] is the operator of circuit [c]: run the circuit on the wires given by the initial layout, then move the wire of
    every physical qubit in the output permutation to its logical output; untouched wires stay where they are (wires that
    are acted upon but have no output may end up anywhere) *)
Definition realises (c : circuit) (V : mat) : Prop :=
  exists s : {perm Lg},
    [/\ forall i v, (i, v) \in c_output _ _ _ c -> s (c_layout _ _ _ c i) = v,
        forall q, untouched c q -> s q = q &
        V = Pm s *m sem_ops (c_layout _ _ _ c) (c_ops _ _ _ c)].

(** ** well-formed circuits *)
Definition wf_circuit (c : circuit) : Prop :=
  [/\ uniq (c_keys _ _ _ c), {in c_keys _ _ _ c &, injective (c_layout _ _ _ c)},
      (forall o q, List.In o (c_ops _ _ _ c) -> q \in op_qubits o -> q \in c_keys _ _ _ c) &
      [/\ uniq (map fst (c_output _ _ _ c)), uniq (map snd (c_output _ _ _ c)),
          {subset map fst (c_output _ _ _ c) <= c_keys _ _ _ c} &
          {subset map snd (c_output _ _ _ c) <= map (c_layout _ _ _ c) (c_keys _ _ _ c)}]].
(** every gate is unitary wherever it is placed *)
Definition unitary_gate (g : gate) : Prop :=
  forall p : Ph -> Lg, {in g_qubits g &, injective p} -> unitary (gmx g p).
(** a gate given by a unitary matrix on distinct targets that are not controls *)
Definition unitary_matrix (g : gate) : Prop :=
  [/\ uniq (g_tgt g), (forall q, q \in map fst (g_ctrl g) -> q \notin g_tgt g) &
      forall a c : seq bool, size a = size (g_tgt g) -> size c = size (g_tgt g) ->
        \sum_(b : (size (g_tgt g)).-tuple bool) g_mat g a b * (g_mat g c b)^* = (a == c)%:R].
Fixpoint unitary_op (o : op) : Prop :=
  match o with
  | OGate g => unitary_gate g
  | OSwap _ _ => True
  | OComp l => (fix go (l : seq op) : Prop := match l with nil => True | o :: r => unitary_op o /\ go r end) l
  end.
Definition unitary_circuit (c : circuit) : Prop := forall o, List.In o (c_ops _ _ _ c) -> unitary_op o.
End Qubits.
