(** Model of the decision-diagram checkers: TaskManager, the execute/finish/postprocess/run loops of
    DDEquivalenceChecker and DDAlternatingChecker, the lookahead scheme. No proofs in this file.

    Decision diagrams are values of an abstract type [M] with the package's operations in a record [pkg]; the state a
    checker works on (one shared matrix for the alternating checker, two matrices or two vectors otherwise) is an
    abstract type [ST] with the actions of the two task managers in a record [chk]. DDSem.v instantiates both with
    complex matrices and vectors. Reference counting, garbage collection and node statistics are not modelled.

    Cancellation: [done k] is the value that the [k]-th read of the checker's [done] flag returns.

    Parts of mqt-core that are used here (its source is not in /repo; recalled): dd::getDD / dd::getInverseDD
    (dd/Operations.hpp) and dd::changePermutation (dd/Operations.hpp). *)
From Coq Require Import List Bool NArith Arith.
From Verif Require Import Criterion Schemes.
Import ListNotations.

Section Model.
Variables (Ph Lg G M : Type).
Variable pheq : Ph -> Ph -> bool.
Variable lgeq : Lg -> Lg -> bool.

(** qc::Operation: a gate (StandardOperation, possibly controlled), an uncontrolled SWAP, a CompoundOperation.
    Classically controlled and non-unitary operations are not modelled (getDD throws for them or they were
    removed by the optimisation passes). *)
Inductive op := OGate (g : G) | OSwap (a b : Ph) | OComp (l : list op).

(** qc::Permutation, physical to logical; the domain is kept in [c_keys] below. Reading a missing key (std::map::at throws)
    is not modelled: the layout of a circuit contains all qubits its operations use. *)
Definition perm := Ph -> Lg.
Definition upd (p : perm) (i : Ph) (v : Lg) : perm := fun q => if pheq q i then v else p q.
(** std::swap(permutation.at(a), permutation.at(b)) *)
Definition swap_at (p : perm) (a b : Ph) : perm := upd (upd p a (p b)) b (p a).

(** qc::QuantumComputation, the part the DD checkers read: operations, initialLayout (ascending keys and values),
    outputPermutation (ascending keys) *)
Record circuit := mkCircuit { c_ops : list op; c_keys : list Ph; c_layout : perm; c_output : list (Ph * Lg) }.

(** dd::Package operations on matrix DDs; [p_gate inverse g p] is getStandardOperationDD on the targets and controls of [g]
    mapped through the permutation; [p_swap] is makeTwoQubitGateDD(SWAP) *)
Record pkg := mkPkg {
  p_one : M; p_mul : M -> M -> M;
  p_gate : bool -> G -> perm -> M;
  p_swap : Lg -> Lg -> M }.

Variable pk : pkg.

(** dd::getDD (inv = false) / dd::getInverseDD (inv = true): TaskManager.hpp:55-60 *)
Fixpoint getDD (inv : bool) (o : op) (p : perm) {struct o} : M * perm :=
  match o with
  | OSwap a b => (p_one pk, swap_at p a b)
  | OGate g => (p_gate pk inv g p, p)
  | OComp l =>
      (fix go (l : list op) (e : M) (p : perm) {struct l} : M * perm :=
         match l with
         | [] => (e, p)
         | o :: r => let (m, p') := getDD inv o p in
                     go r (if inv then p_mul pk e m else p_mul pk m e) p'
         end) l (p_one pk) p
  end.

(** what identifies an operation for the checkers *)
Variable gswapt : G -> bool.        (* getType() == qc::SWAP (a controlled SWAP) *)
Variable geqb : G -> G -> bool.     (* Operation::equals on gates *)
Variable view : op -> opview.       (* getType(), getNcontrols(), getUsedQubits().size() *)

(** ( *iterator)->getType() == qc::SWAP: TaskManager.hpp:88-92 *)
Definition is_swap (o : op) : bool := match o with OSwap _ _ => true | OGate g => gswapt g | OComp _ => false end.

(** Operation::equals: DDAlternatingChecker.cpp:124-133; permutations are not taken into account *)
Fixpoint op_eqb (o1 o2 : op) {struct o1} : bool :=
  match o1, o2 with
  | OGate g, OGate h => geqb g h
  | OSwap a b, OSwap c d => (pheq a c && pheq b d) || (pheq a d && pheq b c)
  | OComp l1, OComp l2 =>
      (fix go (l1 l2 : list op) {struct l1} : bool :=
         match l1, l2 with
         | [], [] => true
         | x :: r1, y :: r2 => op_eqb x y && go r1 r2
         | _, _ => false
         end) l1 l2
  | _, _ => false
  end.

(** TaskManager.hpp:147-153: iterator (as the remaining operations) and tracked permutation *)
Record tm := mkTm { t_rest : list op; t_perm : perm }.
Definition finished (t : tm) : bool := match t_rest t with [] => true | _ => false end.
(** TaskManager.hpp:34-37 *)
Definition tm_reset (c : circuit) : tm := mkTm (c_ops c) (c_layout c).
(** TaskManager.hpp:68 *)
Definition advanceIterator (t : tm) : tm := mkTm (tl (t_rest t)) (t_perm t).

(** one task manager acting on the checker's state: [act] multiplies by a matrix DD from its side, [inv] says whether the
    inverse DD of the gate is used. TaskManager.hpp:70-86: Left: to = DD * to; Right: to = to * inverseDD; vectors: DD * to *)
Section Task.
Variable ST : Type.
Variable act : M -> ST -> ST.
Variable inv : bool.

(** TaskManager.hpp:88-92 *)
Fixpoint apply_swaps (r : list op) (p : perm) (s : ST) : tm * ST :=
  match r with
  | o :: r' => if is_swap o then let (m, p') := getDD inv o p in apply_swaps r' p' (act m s) else (mkTm r p, s)
  | [] => (mkTm [] p, s)
  end.
Definition applySwapOperations (t : tm) (s : ST) : tm * ST := apply_swaps (t_rest t) (t_perm t) s.
(** TaskManager.hpp:70-86; dereferencing end() is not reached by the loops below *)
Definition applyGate (t : tm) (s : ST) : tm * ST :=
  match t_rest t with
  | o :: r => let (m, p') := getDD inv o (t_perm t) in (mkTm r p', act m s)
  | [] => (t, s)
  end.
(** TaskManager.hpp:95-100; [fuel] bounds the number of operations left *)
Fixpoint advance_fuel (fuel : nat) (steps : N) (t : tm) (s : ST) : tm * ST :=
  match fuel with
  | O => (t, s)
  | S f => if (steps =? 0)%N || finished t then (t, s)
           else let (t1, s1) := applyGate t s in
                let (t2, s2) := applySwapOperations t1 s1 in
                advance_fuel f (steps - 1) t2 s2
  end.
Definition advance (steps : N) (t : tm) (s : ST) : tm * ST := advance_fuel (length (t_rest t)) steps t s.
(** TaskManager.hpp:105-109 *)
Fixpoint finish_fuel (fuel : nat) (t : tm) (s : ST) : tm * ST :=
  match fuel with
  | O => (t, s)
  | S f => if finished t then (t, s) else let (t1, s1) := advance 1 t s in finish_fuel f t1 s1
  end.
Definition tm_finish (t : tm) (s : ST) : tm * ST := finish_fuel (length (t_rest t)) t s.

(** dd::changePermutation, called by TaskManager.hpp:112-115. [zero] is the default value 0 of the search index.
    None: an exception (a key of the output permutation is missing in the tracked permutation).
    The shortcut for the zero DD is omitted (multiplying zero gives zero). *)
Variable zero : Ph.
Fixpoint changePermutation (keys : list Ph) (from : perm) (to : list (Ph * Lg)) (s : ST) : option (perm * ST) :=
  match to with
  | [] => Some (from, s)
  | (i, goal) :: r =>
      if existsb (pheq i) keys then
        let current := from i in
        if lgeq current goal then changePermutation keys from r s
        else
          let j := match find (fun k => lgeq (from k) goal) keys with Some k => k | None => zero end in
          if existsb (pheq j) keys then
            changePermutation keys (upd (upd from i goal) j current) r (act (p_swap pk (from i) (from j)) s)
          else None
      else None
  end.
End Task.

(** application schemes as constructed by DDEquivalenceChecker.cpp:226-269 (see Schemes.v) *)
Inductive appscheme := SSequential (n1 n2 : N) | SOneToOne | SProportional (fusion : bool) | SGateCost (t : table) (fusion : bool) | SLookahead.

(** the checker's state and how the two task managers act on it *)
Record chk (ST : Type) := mkChk {
  k_act1 : M -> ST -> ST; k_act2 : M -> ST -> ST;
  k_inv2 : bool;                  (* the second task manager works from the right with inverse DDs *)
  k_isid : ST -> bool;            (* functionality.isIdentity(); constantly false for the base class *)
  k_size : ST -> N;               (* number of nodes *)
  k_alt : bool }.                 (* DDAlternatingChecker overrides finish *)
Arguments k_act1 {ST}. Arguments k_act2 {ST}. Arguments k_inv2 {ST}. Arguments k_isid {ST}. Arguments k_size {ST}. Arguments k_alt {ST}.

Section Checker.
Variable ST : Type.
Variable k : chk ST.
Variable sch : appscheme.
Variable done : nat -> bool.

(** state of a checker during a run; [x_c1 x_c2]: cached operations of the lookahead scheme
    (LookaheadApplicationScheme.hpp:83-88); [x_tick]: number of reads of the flag so far *)
Record xst := mkX { x_s : ST; x_t1 : tm; x_t2 : tm; x_c1 : option M; x_c2 : option M; x_tick : nat }.

(** EquivalenceChecker.hpp:40-42 *)
Definition isDone (x : xst) : bool * xst :=
  (done (x_tick x), mkX (x_s x) (x_t1 x) (x_t2 x) (x_c1 x) (x_c2 x) (S (x_tick x))).

Definition on1 (f : tm -> ST -> tm * ST) (x : xst) : xst :=
  let (t, s) := f (x_t1 x) (x_s x) in mkX s t (x_t2 x) (x_c1 x) (x_c2 x) (x_tick x).
Definition on2 (f : tm -> ST -> tm * ST) (x : xst) : xst :=
  let (t, s) := f (x_t2 x) (x_s x) in mkX s (x_t1 x) t (x_c1 x) (x_c2 x) (x_tick x).

Definition swaps1 (x : xst) : xst := on1 (applySwapOperations ST (k_act1 k) false) x.
Definition swaps2 (x : xst) : xst := on2 (applySwapOperations ST (k_act2 k) (k_inv2 k)) x.
Definition advance1 (n : N) (x : xst) : xst := on1 (advance ST (k_act1 k) false n) x.
Definition advance2 (n : N) (x : xst) : xst := on2 (advance ST (k_act2 k) (k_inv2 k) n) x.
Definition finish1 (x : xst) : xst := on1 (tm_finish ST (k_act1 k) false) x.
Definition finish2 (x : xst) : xst := on2 (tm_finish ST (k_act2 k) (k_inv2 k)) x.

(** LookaheadApplicationScheme.hpp:34-81; the caller has checked that both task managers are not finished *)
Definition cache1 (x : xst) : M * xst :=
  match x_c1 x, t_rest (x_t1 x) with
  | Some m, _ => (m, x)
  | None, o :: _ => let (m, p) := getDD false o (t_perm (x_t1 x)) in
                    (m, mkX (x_s x) (mkTm (t_rest (x_t1 x)) p) (x_t2 x) (Some m) (x_c2 x) (x_tick x))
  | None, [] => (p_one pk, x)
  end.
Definition cache2 (x : xst) : M * xst :=
  match x_c2 x, t_rest (x_t2 x) with
  | Some m, _ => (m, x)
  | None, o :: _ => let (m, p) := getDD true o (t_perm (x_t2 x)) in
                    (m, mkX (x_s x) (x_t1 x) (mkTm (t_rest (x_t2 x)) p) (x_c1 x) (Some m) (x_tick x))
  | None, [] => (p_one pk, x)
  end.
Definition lookahead (x : xst) : xst :=
  let (m1, x) := cache1 x in
  let (m2, x) := cache2 x in
  let d1 := k_act1 k m1 (x_s x) in
  let d2 := k_act2 k m2 (x_s x) in
  if (k_size k d1 <=? k_size k d2)%N
  then mkX d1 (advanceIterator (x_t1 x)) (x_t2 x) None (x_c2 x) (x_tick x)
  else mkX d2 (x_t1 x) (advanceIterator (x_t2 x)) (x_c1 x) None (x_tick x).

(** ( *applicationScheme)(): numbers of operations to apply, after the scheme's own effects *)
Definition query (x : xst) : (N * N) * xst :=
  match sch with
  | SSequential n1 n2 => (sequential_scheme n1 n2, x)
  | SOneToOne => (onetoone_scheme, x)
  | SProportional fu =>
      match t_rest (x_t1 x) with
      | o :: _ => (proportional_scheme fu (view o) (N.of_nat (length (t_rest (x_t1 x)))) (N.of_nat (length (t_rest (x_t2 x)))), x)
      | [] => ((0, 0)%N, x)
      end
  | SGateCost t fu => match t_rest (x_t1 x) with o :: _ => (gatecost_scheme t fu (view o), x) | [] => ((0, 0)%N, x) end
  | SLookahead => ((0, 0)%N, lookahead x)
  end.

Definition is_lookahead : bool := match sch with SLookahead => true | _ => false end.
(** DDAlternatingChecker.cpp:124-133 *)
Definition gatesAreIdentical (x : xst) : bool :=
  match t_rest (x_t1 x), t_rest (x_t2 x) with o1 :: _, o2 :: _ => op_eqb o1 o2 | _, _ => false end.
Definition both_left (x : xst) : bool := negb (finished (x_t1 x)) && negb (finished (x_t2 x)).

(** DDAlternatingChecker.cpp:52-81 and (with [k_isid] constantly false) DDEquivalenceChecker.cpp:155-175.
    None: [fuel] iterations were not enough *)
Fixpoint execute (fuel : nat) (x : xst) : option xst :=
  match fuel with
  | O => None
  | S f =>
      if negb (both_left x) then Some x else
      let (d, x) := isDone x in
      if d then Some x else
      let x := swaps2 (swaps1 x) in
      if negb (both_left x) then execute f x else
      let (d, x) := isDone x in
      if d then execute f x else
      if k_isid k (x_s x) && negb is_lookahead && gatesAreIdentical x then
        execute f (mkX (x_s x) (advanceIterator (x_t1 x)) (advanceIterator (x_t2 x)) (x_c1 x) (x_c2 x) (x_tick x))
      else
        let '((a1, a2), x) := query x in
        let (d1, x) := isDone x in
        let x := if d1 then x else advance1 a1 x in
        let (d2, x) := isDone x in
        let x := if d2 then x else advance2 a2 x in
        execute f x
  end.

(** DDAlternatingChecker.cpp:83-88 / DDEquivalenceChecker.cpp:177-185 *)
Definition finish (x : xst) : xst :=
  let x := if k_alt k then finish1 x
           else let (d, x) := isDone x in if d then x else finish1 x in
  let (d, x) := isDone x in
  if d then x else finish2 x.

(** the parts of a run that depend on the kind of checker *)
Variable zero : Ph.
Variables (c1 c2 : circuit).
Definition chperm1 (x : xst) : option xst :=
  match changePermutation ST (k_act1 k) zero (c_keys c1) (t_perm (x_t1 x)) (c_output c1) (x_s x) with
  | Some (p, s) => Some (mkX s (mkTm (t_rest (x_t1 x)) p) (x_t2 x) (x_c1 x) (x_c2 x) (x_tick x))
  | None => None end.
Definition chperm2 (x : xst) : option xst :=
  match changePermutation ST (k_act2 k) zero (c_keys c2) (t_perm (x_t2 x)) (c_output c2) (x_s x) with
  | Some (p, s) => Some (mkX s (x_t1 x) (mkTm (t_rest (x_t2 x)) p) (x_c1 x) (x_c2 x) (x_tick x))
  | None => None end.
(** reduceAncillae / reduceGarbage of either task manager on its part of the state: TaskManager.hpp:118-138 *)
Variables (redanc1 redanc2 redgar1 redgar2 : ST -> ST).
Variable partialeq : bool.            (* configuration.functionality.checkPartialEquivalence *)
Definition on_state (f : ST -> ST) (x : xst) : xst := mkX (f (x_s x)) (x_t1 x) (x_t2 x) (x_c1 x) (x_c2 x) (x_tick x).

(** DDEquivalenceChecker.cpp:187-207 *)
Definition postprocessTask (ch : xst -> option xst) (ra rg : ST -> ST) (x : xst) : option xst :=
  match ch x with
  | None => None
  | Some x =>
      let (d, x) := isDone x in if d then Some x else
      let x := on_state ra x in
      let (d, x) := isDone x in if d then Some x else
      Some (if partialeq then on_state rg x else x)
  end.
(** DDEquivalenceChecker.cpp:209-217 *)
Definition base_postprocess (x : xst) : option xst :=
  let (d, x) := isDone x in
  match (if d then Some x else postprocessTask chperm1 redanc1 redgar1 x) with
  | None => None
  | Some x => let (d, x) := isDone x in if d then Some x else postprocessTask chperm2 redanc2 redgar2 x
  end.
(** DDAlternatingChecker.cpp:90-97 *)
Definition alt_postprocess (x : xst) : option xst :=
  match chperm1 x with
  | None => None
  | Some x => let (d, x) := isDone x in if d then Some x else chperm2 x
  end.
Definition postprocess (x : xst) : option xst := if k_alt k then alt_postprocess x else base_postprocess x.

(** final comparison: DDAlternatingChecker.cpp:99-122 / DDEquivalenceChecker.cpp:219-223 *)
Variable check : ST -> criterion.

(** what a run does: returns a verdict, throws, or does not come back (fuel) *)
Inductive runres := RVerdict (c : criterion) (x : xst) | RThrow | RFuel.
(** DDEquivalenceChecker.cpp:104-141 (and DDAlternatingChecker.cpp:21-25 / DDConstructionChecker.hpp:40-47 /
    DDSimulationChecker.cpp:28-33 for the start state [s0]); [old] is the member [equivalence] before the run *)
Definition initial (s0 : ST) : xst := mkX s0 (tm_reset c1) (tm_reset c2) None None 0.
Definition loop_bound : nat := length (c_ops c1) + length (c_ops c2) + 2.
Definition run (s0 : ST) (old : criterion) : runres :=
  match execute loop_bound (initial s0) with
  | None => RFuel
  | Some x =>
      match postprocess (finish x) with
      | None => RThrow
      | Some x => let (d, x) := isDone x in RVerdict (if d then old else check (x_s x)) x
      end
  end.
End Checker.
End Model.
