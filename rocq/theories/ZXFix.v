(** The loop of the ZX checker's constructor that fixes the ancillaries, with the positions at which mqt-core's makeAncilla finds them.
    No proofs in this file.

    makeAncilla is mqt-core's (its source is not in /repo), recalled: makeAncilla(in, out) takes inputs[in] and outputs[out], erases both
    from the vectors of inputs and outputs and makes the two vertices X-spiders. The positions of the elements behind an erased one
    change. *)
From Coq Require Import List Arith.
From Verif Require Import Perm.
Import ListNotations.

(** vector::erase(begin() + k); [None]: undefined, there is no such element *)
Fixpoint erase_at {A : Type} (k : nat) (l : list A) : option (list A) :=
  match l, k with
  | [], _ => None
  | _ :: r, O => Some r
  | x :: r, S k' => option_map (cons x) (erase_at k' r)
  end.
(** makeAncilla(i, o) on the wires of the inputs and outputs (mqt-core, recalled) *)
Definition makeAncilla (i o : nat) (d : list nat * list nat) : option (list nat * list nat) :=
  match erase_at i (fst d), erase_at o (snd d) with Some ins, Some outs => Some (ins, outs) | _, _ => None end.
(** ZXChecker.cpp:44-50 for one of the two diagrams, [anc] running down from getNqubits() - 1 to [without]; p.at(anc) is assumed to
    succeed (C43) *)
Fixpoint fix_ancillaries (p : nat -> nat) (without k : nat) (d : list nat * list nat) : option (list nat * list nat) :=
  match k with
  | O => Some d
  | S k' => match makeAncilla (without + k') (p (without + k')) d with None => None | Some d' => fix_ancillaries p without k' d' end
  end.
(** the diagram of a circuit with [n] qubits starts with the wires 0 .. n-1 on both sides (buildFunctionality, mqt-core, recalled) *)
Definition remaining_wires (p : nat -> nat) (without n : nat) : option (list nat * list nat) :=
  fix_ancillaries p without (n - without) (seq 0 n, seq 0 n).
