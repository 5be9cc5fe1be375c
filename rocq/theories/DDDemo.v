(** Small circuits on two qubits [false] and [true]: non-vacuity examples and counterexamples. Definitions only. *)
From Coq Require Import BinNums.
From mathcomp Require Import all_ssreflect all_fingroup all_algebra.
From Verif Require Import Criterion Schemes DDCheck DDSpec Qubits DDSem DDFlow.
Set Implicit Arguments.
Unset Strict Implicit.
Unset Printing Implicit Defensive.
Import GRing.Theory Num.Theory.
Local Open Scope ring_scope.

Section Demo.
Variable C : numClosedFieldType.
Local Notation gate := (gate C bool_eqType).
(** X and controlled-X *)
Definition xmat (a b : seq bool) : C := (a != b)%:R.
Definition xgate (q : bool) : gate := Gate [::] [:: q] xmat false.
Definition cxgate (c t : bool) : gate := Gate [:: (c, true)] [:: t] xmat false.
(** a circuit on both qubits with layout [L] and output permutation [O] *)
Definition qc2 (L : bool -> bool) (O : bool -> bool) (l : seq (op bool gate)) : circuit bool bool gate :=
  mkCircuit bool bool gate l [:: false; true] L [:: (false, O false); (true, O true)].
Definition X q := OGate bool gate (xgate q).
Definition CX c t := OGate bool gate (cxgate c t).
Definition SWAP := OSwap bool gate false true.
Definition Comp l := OComp bool gate l.
(** the DD package's comparison of gates on these gates: controls, targets *)
Definition demo_eqb (g h : gate) : bool := (g_ctrl g == g_ctrl h) && (g_tgt g == g_tgt h).
Definition demo_view (o : op bool gate) : opview := match o with OGate g => mkView TX (bin_of_nat (size (g_ctrl g))) (bin_of_nat (size (g_qubits g))) | _ => mkView TSWAP N0 (Npos (xO xH)) end.

(** an exact DD package, for the non-vacuity examples *)
Section Package.
Variables (Lg : finType) (Ph : eqType).
Definition demo_close (F : mat C Lg) : bool :=
  [&& [forall x, forall y, (x != y) ==> (entry F x y == 0)], entry F (basis0 Lg) (basis0 Lg) != 0 &
      [forall x, (entry F x x == 0) || (entry F x x == entry F (basis0 Lg) (basis0 Lg))]].
Definition demo_weight (F : mat C Lg) : C := entry F (basis0 Lg) (basis0 Lg).
Definition demo_node m n (e f : 'M[C]_(m, n)) : bool :=
  ((e == 0) && (f == 0)) || [exists i, exists j, [&& e i j != 0, f i j != 0 & e == (e i j / f i j) *: f]].
Definition demo_equals (g h : Qubits.gate C Ph) : bool :=
  [&& g_ctrl g == g_ctrl h, g_tgt g == g_tgt h &
      [forall a : (size (g_tgt g)).-tuple bool, forall b : (size (g_tgt g)).-tuple bool, g_mat g a b == g_mat h a b]].
Definition demo_package : package C Lg Ph :=
  @Package C Lg Ph demo_close demo_weight (@demo_node _ _) (fun e f => e == f) (@demo_node _ _) (fun e f => e == f)
    demo_equals (fun _ => mkView TX N0 (Npos xH)) (fun _ => N0).
End Package.
End Demo.
