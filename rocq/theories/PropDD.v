(** C09, C31: cancellation and progress of the decision-diagram checkers, for every kind of checker state, every application
    scheme and every DD package. *)
From Coq Require Import List Bool NArith Arith.
From Verif Require Import Criterion Schemes DDCheck DDSpec DDProofs3 DDProofs4 DDProofs5 DDProofs6.
Import ListNotations.

Section S.
Context {Ph Lg G M ST : Type}.
Variables (pheq : Ph -> Ph -> bool) (lgeq : Lg -> Lg -> bool) (pk : pkg Ph Lg G M) (gswapt : G -> bool) (geqb : G -> G -> bool)
          (view : op Ph G -> opview).
Notation run := (run Ph Lg G M pheq lgeq pk gswapt geqb view ST).
Notation tick y := (x_tick Ph Lg G M ST y).
Notation rest1 y := (t_rest _ _ _ (x_t1 Ph Lg G M ST y)).
Notation rest2 y := (t_rest _ _ _ (x_t2 Ph Lg G M ST y)).

(** ** C09 *)
(** [done j] is the answer of the j-th look at the flag; a run that looked [tick y] times looked last just before the final
    comparison. If that look (hence possibly any earlier one) saw the flag, the verdict is the old one; otherwise the run is
    the uncancelled run and has used up both circuits. *)
Theorem C09_cancelled_or_complete :
  forall (k : chk M ST) (sch : appscheme) (done : nat -> bool) (zero : Ph) (c1 c2 : circuit Ph Lg G) (ra1 ra2 rg1 rg2 : ST -> ST)
         (part : bool) (check : ST -> criterion) (s0 : ST) (old c : criterion) (y : xst Ph Lg G M ST),
  monotone done ->
  run k sch done zero c1 c2 ra1 ra2 rg1 rg2 part check s0 old = RVerdict _ _ _ _ _ c y ->
  (done (Nat.pred (tick y)) = true /\ c = old) \/
  (done (Nat.pred (tick y)) = false /\ rest1 y = [] /\ rest2 y = [] /\
   run k sch never zero c1 c2 ra1 ra2 rg1 rg2 part check s0 old = RVerdict _ _ _ _ _ c y).
Proof.
  intros k sch done zero c1 c2 ra1 ra2 rg1 rg2 part check s0 old c y HM H.
  destruct (run_cancelled _ _ _ _ _ _ _ _ _ _ _ _ _ _ _ _ _ _ _ _ _ _ HM H) as [E|[E1 E2]]; [now left|right].
  destruct (run_rest _ _ _ _ _ _ _ _ _ _ _ _ _ _ _ _ _ _ _ _ _ E2) as [R1 R2]. auto.
Qed.

(** a fresh checker that was cancelled before its final comparison has no information *)
Theorem C09_fresh_cancelled_no_information :
  forall (k : chk M ST) (sch : appscheme) (done : nat -> bool) (zero : Ph) (c1 c2 : circuit Ph Lg G) (ra1 ra2 rg1 rg2 : ST -> ST)
         (part : bool) (check : ST -> criterion) (s0 : ST) (c : criterion) (y : xst Ph Lg G M ST) (j : nat),
  monotone done -> done j = true -> j < tick y ->
  run k sch done zero c1 c2 ra1 ra2 rg1 rg2 part check s0 NoInformation = RVerdict _ _ _ _ _ c y -> c = NoInformation.
Proof.
  intros k sch done zero c1 c2 ra1 ra2 rg1 rg2 part check s0 c y j HM HJ HL H.
  destruct (run_cancelled _ _ _ _ _ _ _ _ _ _ _ _ _ _ _ _ _ _ _ _ _ _ HM H) as [[_ E]|[E _]]; [exact E|].
  exfalso. assert (HJ' : j <= Nat.pred (tick y)) by (destruct (tick y); [inversion HL|apply Nat.lt_succ_r; exact HL]).
  rewrite (mono_le _ _ _ HM HJ' E) in HJ. discriminate.
Qed.

(** ** C31 *)
(** every iteration uses up a gate: |G1| + |G2| iterations (and the test that ends the loop) suffice for every identity test,
    size function, cost table and scheme *)
Theorem C31_loop_ends : forall (k : chk M ST) (sch : appscheme) (c1 c2 : circuit Ph Lg G) (s0 : ST),
  scheme_for c1 c2 sch ->
  execute Ph Lg G M pheq pk gswapt geqb view ST k sch never (length (c_ops _ _ _ c1) + length (c_ops _ _ _ c2) + 1)
    (initial Ph Lg G M ST c1 c2 s0) <> None.
Proof.
  intros k sch c1 c2 s0 HS. apply (execute_bound _ _ _ _ _ _ _ c1 c2 HS); cbn [initial x_t1 x_t2 tm_reset t_rest]; rewrite ?Nat.add_1_r; [apply Nat.le_refl|apply Nat.lt_succ_diag_r].
Qed.

(** every gate of both circuits is applied exactly once and in order: a checker that only writes down what it applies ends with
    the matrices of the operations of either circuit, in order *)
Theorem C31_each_gate_once : forall (sch : appscheme) (c1 c2 : circuit Ph Lg G) (inv alt : bool) (size : list M * list M -> N),
  scheme_for c1 c2 sch ->
  (is_lookahead sch = true -> inv = true /\ no_hidden_swap (c_ops _ _ _ c1) /\ no_hidden_swap (c_ops _ _ _ c2)) ->
  exists x, execute Ph Lg G M pheq pk gswapt geqb view _ (log_chk inv alt size) sch never (length (c_ops _ _ _ c1) + length (c_ops _ _ _ c2) + 1)
              (initial Ph Lg G M _ c1 c2 ([], [])) = Some x /\
    x_s _ _ _ _ _ (finish Ph Lg G M pheq pk gswapt _ (log_chk inv alt size) never x) =
      (fst (trace pheq pk false (c_ops _ _ _ c1) (c_layout _ _ _ c1)), fst (trace pheq pk inv (c_ops _ _ _ c2) (c_layout _ _ _ c2))).
Proof. intros sch c1 c2 inv alt size. exact (log_run pheq pk gswapt geqb view sch c1 c2 inv alt size). Qed.

(** ** C38 *)
(** with the sequential scheme a single iteration uses up both circuits completely (if either has an operation that is not an uncontrolled
    SWAP, and the checker is not one that skips equal gates) *)
Theorem C38_sequential_one_iteration : forall (k : chk M ST) (c1 c2 : circuit Ph Lg G) (s0 : ST) (n1 n2 : N),
  scheme_for c1 c2 (SSequential n1 n2) -> (forall s, k_isid _ _ k s = false) ->
  (exists o, In o (c_ops _ _ _ c1) /\ is_swap _ _ gswapt o = false) -> (exists o, In o (c_ops _ _ _ c2) /\ is_swap _ _ gswapt o = false) ->
  exists y, execute Ph Lg G M pheq pk gswapt geqb view ST k (SSequential n1 n2) never 2 (initial Ph Lg G M ST c1 c2 s0) = Some y /\
    rest1 y = [] /\ rest2 y = [].
Proof. intros k c1 c2 s0 n1 n2 H. exact (seq_once pheq pk gswapt geqb view k c1 c2 s0 _ n1 n2 eq_refl H). Qed.
End S.
Print Assumptions C38_sequential_one_iteration.
Print Assumptions C09_cancelled_or_complete.
Print Assumptions C09_fresh_cancelled_no_information.
Print Assumptions C31_loop_ends.
Print Assumptions C31_each_gate_once.

(** gates are numbers, matrices are (inverse?, gate, qubit's place) or SWAPs *)
Definition demo_pkg : pkg nat nat nat (list nat) :=
  mkPkg nat nat nat (list nat) [] (@app nat) (fun inv g p => [g; p 0; if inv then 1 else 0]) (fun a b => [99; a; b]).
Definition demo_circ (l : list nat) : circuit nat nat nat := mkCircuit nat nat nat (map (OGate nat nat) l) [0; 1] (fun q => q) [(0, 0); (1, 1)].
Definition demo_run (sch : appscheme) (done : nat -> bool) :=
  run nat nat nat (list nat) Nat.eqb Nat.eqb demo_pkg (fun _ => false) Nat.eqb (fun _ => mkView TX 0 1) _
    (log_chk false false (fun _ => 0%N)) sch done 0 (demo_circ [10; 11; 12]) (demo_circ [20; 21]) id id id id false
    (fun s => if Nat.eqb (length (fst s)) 3 then Equivalent else NotEquivalent) ([], []) NoInformation.
(** uncancelled: all five gates, in order; cancelled at the eighth look: no information *)
Example C09_C31_example :
  (exists y, demo_run SOneToOne never = RVerdict _ _ _ _ _ Equivalent y /\
     x_s _ _ _ _ _ y = ([[10; 0; 0]; [11; 0; 0]; [12; 0; 0]], [[20; 0; 0]; [21; 0; 0]]) /\ x_tick _ _ _ _ _ y = 17) /\
  (exists y, demo_run SOneToOne (fun j => Nat.leb 7 j) = RVerdict _ _ _ _ _ NoInformation y /\ x_s _ _ _ _ _ y = ([[10; 0; 0]; [11; 0; 0]], [[20; 0; 0]])).
Proof. split; eexists; vm_compute; repeat split. Qed.
(** the hypotheses of C38 for circuits of three and two gates *)
Example C38_sequential_example : scheme_for (demo_circ [10; 11; 12]) (demo_circ [20; 21]) (SSequential 3 2) /\
  (exists o, In o (c_ops _ _ _ (demo_circ [20; 21])) /\ is_swap _ _ (fun _ => false) o = false) /\
  exists y, demo_run (SSequential 3 2) never = RVerdict _ _ _ _ _ Equivalent y /\
    x_s _ _ _ _ _ y = ([[10; 0; 0]; [11; 0; 0]; [12; 0; 0]], [[20; 0; 0]; [21; 0; 0]]).
Proof.
  split; [split; reflexivity|]. split; [eexists; split; [left; reflexivity|reflexivity]|].
  eexists. vm_compute. split; reflexivity.
Qed.
