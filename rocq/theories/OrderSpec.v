(** Specification vocabulary for C80: in which order the operations of the two circuits are applied. Abstract decision diagrams, no proofs.
    A circuit is here the list of its matrices, each with the information whether the operation is of type SWAP. *)
From Coq Require Import List Bool NArith.
From Verif Require Import Schemes DDCheck.
Import ListNotations.

Section Order.
Context {M ST : Type}.
Variables (act1 act2 : M -> ST -> ST).   (* apply a matrix on the side of the first / of the second circuit *)
Variable size : ST -> N.                 (* number of nodes *)

Definition all_of (act : M -> ST -> ST) (l : list (bool * M)) (s : ST) : ST := fold_left (fun s e => act (snd e) s) l s.

(** [greedy l1 l2 s r]: with [l1] and [l2] left to do and the diagram [s], the result is [r] *)
Inductive greedy : list (bool * M) -> list (bool * M) -> ST -> ST -> Prop :=
| greedy_only2 l2 s : greedy [] l2 s (all_of act2 l2 s)           (* one circuit is used up: the rest of the other one *)
| greedy_only1 l1 s : greedy l1 [] s (all_of act1 l1 s)
| greedy_swap1 m l1 l2 s r : l2 <> [] ->                           (* SWAPs first, those of the first circuit before those of the second *)
    greedy l1 l2 (act1 m s) r -> greedy ((true, m) :: l1) l2 s r
| greedy_swap2 m1 l1 m l2 s r :
    greedy ((false, m1) :: l1) l2 (act2 m s) r -> greedy ((false, m1) :: l1) ((true, m) :: l2) s r
| greedy_left m1 l1 m2 l2 s r : (size (act1 m1 s) <= size (act2 m2 s))%N ->    (* the smaller diagram, on a tie the first circuit *)
    greedy l1 ((false, m2) :: l2) (act1 m1 s) r -> greedy ((false, m1) :: l1) ((false, m2) :: l2) s r
| greedy_right m1 l1 m2 l2 s r : (size (act2 m2 s) < size (act1 m1 s))%N ->
    greedy ((false, m1) :: l1) l2 (act2 m2 s) r -> greedy ((false, m1) :: l1) ((false, m2) :: l2) s r.

(** one of the first, one of the second, ... *)
Fixpoint alternate (l1 l2 : list M) (s : ST) : ST :=
  match l1, l2 with
  | m1 :: r1, m2 :: r2 => alternate r1 r2 (act2 m2 (act1 m1 s))
  | [], _ => fold_left (fun s m => act2 m s) l2 s
  | _, [] => fold_left (fun s m => act1 m s) l1 s
  end.
End Order.

(** the matrices of a circuit's operations in order, marked *)
Section Marked.
Context {Ph Lg G M : Type}.
Variables (pheq : Ph -> Ph -> bool) (pk : pkg Ph Lg G M) (gswapt : G -> bool).
(** no operation of type SWAP *)
Definition plain (l : list (op Ph G)) : Prop := Forall (fun o => is_swap _ _ gswapt o = false) l.
Fixpoint marked (inv : bool) (l : list (op Ph G)) (p : perm Ph Lg) : list (bool * M) :=
  match l with
  | [] => []
  | o :: r => let (m, p') := getDD _ _ _ _ pheq pk inv o p in (is_swap _ _ gswapt o, m) :: marked inv r p'
  end.
End Marked.
