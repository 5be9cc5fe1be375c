(** Specification vocabulary for the decision-diagram checkers, at the level of abstract decision diagrams. No proofs. *)
From Coq Require Import List Bool NArith Arith.
From Verif Require Import Criterion Schemes DDCheck.
Import ListNotations.

Section Spec.
Context {Ph Lg G M : Type}.
Variables (pheq : Ph -> Ph -> bool) (pk : pkg Ph Lg G M) (gswapt : G -> bool).
Notation op := (op Ph G).
Notation perm := (perm Ph Lg).
Notation circuit := (circuit Ph Lg G).

(** the matrices of the operations, in order, and the tracked permutation at the end *)
Fixpoint trace (inv : bool) (l : list op) (p : perm) : list M * perm :=
  match l with
  | [] => ([], p)
  | o :: r => let (m, p') := getDD _ _ _ _ pheq pk inv o p in
              let (ms, pf) := trace inv r p' in (m :: ms, pf)
  end.
(** let matrices act one after the other, the first one first *)
Definition acts {ST} (act : M -> ST -> ST) (ms : list M) (s : ST) : ST := fold_left (fun s m => act m s) ms s.

(** an operation without (nested) uncontrolled SWAPs *)
Fixpoint swap_free (o : op) : bool :=
  match o with OGate _ _ _ => true | OSwap _ _ _ _ => false | OComp _ _ l => forallb swap_free l end.
(** SWAPs occur only as operations of their own, not inside compound operations *)
Definition no_hidden_swap (l : list op) : Prop :=
  forall o, In o l -> swap_free o = true \/ exists a b, o = OSwap _ _ a b.

(** the flag never goes back to false *)
Definition monotone (done : nat -> bool) : Prop := forall k, done k = true -> done (S k) = true.
Definition never : nat -> bool := fun _ => false.

(** the sequential scheme is constructed with the circuits' sizes *)
Definition scheme_for (c1 c2 : circuit) (s : appscheme) : Prop :=
  match s with
  | SSequential n1 n2 => n1 = N.of_nat (length (c_ops _ _ _ c1)) /\ n2 = N.of_nat (length (c_ops _ _ _ c2))
  | _ => True
  end.

(** whenever an operation of the first circuit equals one of the second (as far as Operation::equals can see), applying
    both to an identity leaves it unchanged *)
Definition skips_ok {ST} (k : chk M ST) (geqb : G -> G -> bool) (c1 c2 : circuit) : Prop :=
  forall pre1 o1 post1 pre2 o2 post2 s,
    c_ops _ _ _ c1 = pre1 ++ o1 :: post1 -> c_ops _ _ _ c2 = pre2 ++ o2 :: post2 ->
    op_eqb _ _ pheq geqb o1 o2 = true -> k_isid _ _ k s = true ->
    is_swap _ _ gswapt o1 = false -> is_swap _ _ gswapt o2 = false ->
    let p1 := snd (trace false pre1 (c_layout _ _ _ c1)) in
    let p2 := snd (trace (k_inv2 _ _ k) pre2 (c_layout _ _ _ c2)) in
    swap_free o1 = true /\ swap_free o2 = true /\
    k_act2 _ _ k (fst (getDD _ _ _ _ pheq pk (k_inv2 _ _ k) o2 p2)) (k_act1 _ _ k (fst (getDD _ _ _ _ pheq pk false o1 p1)) s) = s.

(** the two task managers act on different sides *)
Definition sides_commute {ST} (k : chk M ST) : Prop :=
  forall m n s, k_act1 _ _ k m (k_act2 _ _ k n s) = k_act2 _ _ k n (k_act1 _ _ k m s).

(** a checker that only writes down, for either circuit, the matrices it is told to apply; [size] is an arbitrary oracle *)
Definition log_chk (inv alt : bool) (size : list M * list M -> N) : chk M (list M * list M) :=
  mkChk M (list M * list M) (fun m s => (fst s ++ [m], snd s)) (fun m s => (fst s, snd s ++ [m])) inv (fun _ => false) size alt.
End Spec.
