(** The three decision-diagram checkers in exact arithmetic: instances of the model in DDCheck.v. Definitions only. *)
From Coq Require Import BinNums.
From mathcomp Require Import all_ssreflect all_fingroup all_algebra.
From Verif Require Import Criterion Schemes DDCheck DDSpec Qubits.
Set Implicit Arguments.
Unset Strict Implicit.
Unset Printing Implicit Defensive.
Import GRing.Theory Num.Theory.
Local Open Scope ring_scope.

Section Sem.
Variables (C : numClosedFieldType) (Lg : finType) (Ph : eqType).
Local Notation mat := (mat C Lg).
Local Notation vec := (vec C Lg).
Local Notation gate := (gate C Ph).
Local Notation circuit := (circuit Ph Lg gate).

(** DDAlternatingChecker: one matrix, multiplied from both sides (DDAlternatingChecker.hpp:28-31 sets the second task
    manager's direction to Right); isIdentity is true for multiples of the identity (mqt-core: up to global phase) *)
Definition alt_chk (size : mat -> N) : chk mat mat :=
  mkChk mat mat (fun m f => m *m f) (fun m f => f *m m) true (fun f => is_scalar_mx f) size true.
(** DDConstructionChecker: the internal matrices of the two task managers *)
Definition con_chk : chk mat (mat * mat) :=
  mkChk mat (mat * mat) (fun m s => (m *m s.1, s.2)) (fun m s => (s.1, m *m s.2)) false (fun _ => false) (fun _ => N0) false.
(** DDSimulationChecker: the internal vectors of the two task managers *)
Definition sim_chk : chk mat (vec * vec) :=
  mkChk mat (vec * vec) (fun m s => (m *m s.1, s.2)) (fun m s => (s.1, m *m s.2)) false (fun _ => false) (fun _ => N0) false.

Variables (geqb : gate -> gate -> bool) (view : op Ph gate -> opview) (zero : Ph).
Local Notation run ST := (run Ph Lg gate mat eq_op eq_op (@xpkg C Lg Ph) (@g_swap C Ph) geqb view ST).

(** DDAlternatingChecker::run: starts from the projector on the ancillaries common to both circuits
    (DDAlternatingChecker.cpp:21-50); the partial-equivalence flag does not influence its postprocess *)
Definition alt_run (size : mat -> N) (sch : appscheme) (done : nat -> bool) (c1 c2 : circuit) (A : {set Lg})
    (check : mat -> criterion) (old : criterion) :=
  run mat (alt_chk size) sch done zero c1 c2 id id id id false check (proj0 C A) old.
(** DDConstructionChecker::run: each matrix starts from the projector on the circuit's ancillaries
    (DDConstructionChecker.hpp:40-47); reduceAncillae multiplies by that projector from the right
    (TaskManager.hpp:118-123); full equivalence (checkPartialEquivalence = false) *)
Definition con_run (sch : appscheme) (done : nat -> bool) (c1 c2 : circuit) (A1 A2 : {set Lg})
    (check : mat * mat -> criterion) (old : criterion) :=
  run (mat * mat)%type con_chk sch done zero c1 c2
    (fun s => (s.1 *m proj0 C A1, s.2)) (fun s => (s.1, s.2 *m proj0 C A2)) id id false check (proj0 C A1, proj0 C A2) old.
(** DDSimulationChecker::run: both vectors start from the stimulus (DDSimulationChecker.cpp:28-33);
    reduceAncillae has no effect on vectors (TaskManager.hpp:118-123) *)
Definition sim_run (sch : appscheme) (done : nat -> bool) (c1 c2 : circuit) (phi : vec)
    (check : vec * vec -> criterion) (old : criterion) :=
  run (vec * vec)%type sim_chk sch done zero c1 c2 id id id id false check (phi, phi) old.

(** ** the final comparisons in exact arithmetic *)
(** what dd::Package::isCloseToIdentity accepts (mqt-core, recalled): diagonal, a non-zero first entry, and every
    other diagonal entry zero or equal to it *)
Definition basis0 : basis Lg := [ffun _ => false].
Definition diag_const (F : mat) : Prop :=
  [/\ forall x y, x != y -> entry F x y = 0, entry F basis0 basis0 != 0 &
      forall x, entry F x x = 0 \/ entry F x x = entry F basis0 basis0].
(** a closeness test accepts nothing else, and accepts the non-zero multiples of projectors onto zero states *)
Definition closeness_test (isClose : mat -> bool) : Prop :=
  (forall F, isClose F -> diag_const F) /\ (forall w A, w != 0 -> isClose (w *: proj0 C A)).
(** the weight of the root edge of an accepted decision diagram *)
Definition weight_of (weight : mat -> C) : Prop := forall F, diag_const F -> weight F = entry F basis0 basis0.
(** DDAlternatingChecker.cpp:99-122 without partial equivalence *)
Definition alt_check (isClose : mat -> bool) (weight : mat -> C) (F : mat) : criterion :=
  if isClose F then (if weight F == 1 then Equivalent else EquivalentUpToGlobalPhase) else NotEquivalent.

(** canonicity of decision diagrams: same root node iff one is a non-zero multiple of the other *)
Definition same_node_test (T : lmodType C) (sameNode : T -> T -> bool) : Prop :=
  forall e f, sameNode e f <-> exists2 w : C, w != 0 & e = w *: f.
(** ... and if the nodes are the same, the weights are the same iff the decision diagrams are *)
Definition same_weight_test (T : lmodType C) (sameNode sameWeight : T -> T -> bool) : Prop :=
  forall e f, sameNode e f -> sameWeight e f = (e == f).
(** DDEquivalenceChecker.cpp:27-81 for matrices *)
Definition con_check (isClose : mat -> bool) (sameNode sameWeight : mat -> mat -> bool) (s : mat * mat) : criterion :=
  let: (e, f) := s in
  let verdict := if sameWeight e f then Equivalent else EquivalentUpToGlobalPhase in
  if sameNode e f then verdict
  else let eC := isClose e in let fC := isClose f in
       if (if eC || fC then eC && fC else isClose (e *m adj f)) then verdict else NotEquivalent.
(** inner product of vectors, conjugate-linear in the first argument *)
Definition inner (e f : vec) : C := (adj e *m f) ord0 ord0.
(** DDEquivalenceChecker.cpp:27-41,82-102 for vectors; [eps] is simulation.fidelityThreshold *)
Definition sim_check (sameNode sameWeight : vec -> vec -> bool) (eps : C) (s : vec * vec) : criterion :=
  let: (e, f) := s in
  if sameNode e f then (if sameWeight e f then Equivalent else EquivalentUpToPhase)
  else let ip := inner e f in
       if `|'Re ip - 1| < eps then Equivalent
       else if `|('Re ip) ^+ 2 + ('Im ip) ^+ 2 - 1| < eps then EquivalentUpToPhase
       else NotEquivalent.
End Sem.

(** ** further vocabulary for the statements *)
Section More.
Variables (C : numClosedFieldType) (Lg : finType) (Ph : eqType).
Local Notation mat := (mat C Lg).
Local Notation gate := (gate C Ph).
Local Notation op := (op Ph gate).
Local Notation circuit := (circuit Ph Lg gate).
(** a task manager that advances by the given numbers of operations, with the SWAPs that come next, and then to the end of its
    circuit (TaskManager.hpp:88-109); [act] and [inv] as in DDCheck.v *)
Definition tm_portions (ST : Type) (act : mat -> ST -> ST) (inv : bool) (ns : seq N) (t : tm Ph Lg gate) (s : ST) : tm Ph Lg gate * ST :=
  let: (t, s) := foldl (fun ts n => let: (t, s) := advance Ph Lg gate mat eq_op (@xpkg C Lg Ph) (@g_swap C Ph) ST act inv n ts.1 ts.2 in
                                    applySwapOperations Ph Lg gate mat eq_op (@xpkg C Lg Ph) (@g_swap C Ph) ST act inv t s) (t, s) ns in
  tm_finish Ph Lg gate mat eq_op (@xpkg C Lg Ph) (@g_swap C Ph) ST act inv t s.
(** the gates of an operation *)
Fixpoint op_gates (o : op) : seq gate :=
  match o with
  | OGate g => [:: g]
  | OSwap _ _ => [::]
  | OComp l => (fix go (l : seq op) : seq gate := match l with nil => nil | o :: r => op_gates o ++ go r end) l
  end.
(** Operation::equals is exact on two operations: gates of them that are equal are the same operator on the same wires *)
Definition equals_exact_ops (geqb : gate -> gate -> bool) (o1 o2 : op) : Prop :=
  forall g h, List.In g (op_gates o1) -> List.In h (op_gates o2) -> geqb g h -> forall p : Ph -> Lg, gmx g p = gmx h p :> mat.
Definition equals_exact (geqb : gate -> gate -> bool) (c1 c2 : circuit) : Prop :=
  forall o1 o2, List.In o1 (c_ops _ _ _ c1) -> List.In o2 (c_ops _ _ _ c2) -> equals_exact_ops geqb o1 o2.
(** whenever the checker compares two operations that it takes for equal, they contain no SWAPs and their qubits are tracked
    to the same places *)
Definition same_placement (geqb : gate -> gate -> bool) (c1 c2 : circuit) : Prop :=
  forall pre1 o1 post1 pre2 o2 post2,
    c_ops _ _ _ c1 = pre1 ++ o1 :: post1 -> c_ops _ _ _ c2 = pre2 ++ o2 :: post2 ->
    op_eqb _ _ eq_op geqb o1 o2 = true -> is_swap _ _ (@g_swap C Ph) o1 = false -> is_swap _ _ (@g_swap C Ph) o2 = false ->
    [/\ swap_free o1 = true, swap_free o2 = true &
        {in op_qubits o1, snd (trace eq_op (@xpkg C Lg Ph) false pre1 (c_layout _ _ _ c1)) =1
                          snd (trace eq_op (@xpkg C Lg Ph) false pre2 (c_layout _ _ _ c2))}].
(** circuits without SWAPs (e.g. after elidePermutations) whose layouts agree on the qubits they use *)
Definition elided (c : circuit) : Prop := forall o, List.In o (c_ops _ _ _ c) -> swap_free o = true.
Definition same_layout (c1 c2 : circuit) : Prop :=
  forall o q, List.In o (c_ops _ _ _ c1) -> q \in op_qubits o -> c_layout _ _ _ c1 q = c_layout _ _ _ c2 q.

(** wire [q] is left alone by the circuit: nothing acts on it, and it is either its own output or nobody's *)
Definition leaves_alone (c : circuit) (q : Lg) : Prop :=
  (forall i, i \in c_keys _ _ _ c -> c_layout _ _ _ c i = q -> forall o, List.In o (c_ops _ _ _ c) -> i \notin op_qubits o) /\
  (untouched c q \/ exists2 i, c_layout _ _ _ c i = q & (i, q) \in c_output _ _ _ c).
(** every common ancillary is left alone by one of the circuits *)
Definition ancillaries_handled (c1 c2 : circuit) (A : {set Lg}) : Prop :=
  forall q, q \in A -> leaves_alone c1 q \/ leaves_alone c2 q.

(** what the alternating checker relies on, depending on the application scheme (the lookahead scheme never skips gates) *)
Definition alt_conditions (geqb : gate -> gate -> bool) (c1 c2 : circuit) (sch : appscheme) : Prop :=
  if is_lookahead sch then no_hidden_swap (c_ops _ _ _ c1) /\ no_hidden_swap (c_ops _ _ _ c2)
  else equals_exact geqb c1 c2 /\ same_placement geqb c1 c2.

(** DDAlternatingChecker::canHandle (DDAlternatingChecker.cpp:135-163): [anc1], [anc2] are the ancillary logical qubits.
    containsLogicalQubit (mqt-core, recalled) searches the initial layout; isIdleQubit: no operation acts on the physical qubit.
    The order of the loop does not matter. *)
Definition physical_of (c : circuit) (q : Lg) : option Ph := ohead [seq i <- c_keys _ _ _ c | c_layout _ _ _ c i == q].
Definition is_idle (c : circuit) (i : Ph) : bool := all (fun o => i \notin op_qubits o) (c_ops _ _ _ c).
Definition can_handle (c1 c2 : circuit) (anc1 anc2 : {set Lg}) : bool :=
  [forall q, (q \in anc1) && (q \in anc2) ==>
     match physical_of c1 q, physical_of c2 q with
     | Some i1, Some i2 => is_idle c1 i1 || is_idle c2 i2
     | None, None => false
     | _, _ => true
     end].

(** [V1] and [V2] do the same to all states with zeros on the ancillaries, up to the factor [w] *)
Definition agree_up_to (A : {set Lg}) (w : C) (V1 V2 : mat) : Prop := V1 *m proj0 C A = w *: (V2 *m proj0 C A).
End More.
