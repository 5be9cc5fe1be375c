(** Model of the permutation helpers of the ZX checker, src/checker/zx/ZXChecker.cpp:117-172. No proofs in this file.

    qc::Permutation is a std::map<Qubit, Qubit> (mqt-core, recalled): a list of key/value pairs with ascending keys. Qubit numbers
    are natural numbers (the 32-bit range is not modelled). *)
From Coq Require Import List Bool Arith.
Import ListNotations.

Definition qmap := list (nat * nat).

(** std::map::find / at *)
Fixpoint qfind (k : nat) (m : qmap) : option nat :=
  match m with [] => None | (i, v) :: r => if i =? k then Some v else qfind k r end.
(** m[k] = v *)
Fixpoint qset (k v : nat) (m : qmap) : qmap :=
  match m with
  | [] => [(k, v)]
  | (i, w) :: r => if k <? i then (k, v) :: (i, w) :: r else if k =? i then (k, v) :: r else (i, w) :: qset k v r
  end.

(** ZXChecker.cpp:117-123 *)
Definition invert (p : qmap) : qmap := fold_left (fun acc e => qset (snd e) (fst e) acc) p [].

(** ZXChecker.cpp:124-134: p2 after p1 *)
Definition concat (p1 p2 : qmap) : qmap :=
  fold_left (fun acc e => match qfind (snd e) p2 with Some x => qset (fst e) x acc | None => acc end) p1 [].

Definition nmem (x : nat) (l : list nat) : bool := existsb (Nat.eqb x) l.

(** lines 155-162: the first j < n that is not a key yet *)
Definition first_free (n : nat) (from : list nat) : option nat := find (fun j => negb (nmem j from)) (seq 0 n).

(** lines 149-163: [to]/[from] are mappedTo/mappedFrom as sets *)
Definition complete_step (n : nat) (st : qmap * list nat * list nat) (i : nat) : qmap * list nat * list nat :=
  let '(p, to, from) := st in
  if nmem i to then st
  else match first_free n from with
       | Some j => (qset j i p, i :: to, j :: from)
       | None => st
       end.

(** ZXChecker.cpp:136-167. [None]: mappedTo[v] is written out of bounds (undefined behaviour) *)
Definition complete (p : qmap) (n : nat) : option qmap :=
  if length p =? n then Some p
  else if existsb (fun e => n <=? snd e) p then None
  else let '(r, _, _) := fold_left (complete_step n) (seq 0 n) (p, map snd p, map fst p) in Some r.

(** ZXChecker.cpp:169-172: from the output permutation, the initial layout and the number of qubits *)
Definition invertPermutations (out lay : qmap) (n : nat) : option qmap :=
  match complete out n, complete lay n with
  | Some o, Some l => Some (concat (invert o) l)
  | _, _ => None
  end.
