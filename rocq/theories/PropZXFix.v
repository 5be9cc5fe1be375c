(** C73: which wires the ZX checker's constructor leaves open. *)
From Coq Require Import List Arith Lia.
From Verif Require Import Perm ZXFix ZXFixProofs.
Import ListNotations.

(** [p] sends the ancillaries [w .. n-1] to the wires of their outputs. If it is increasing on them (in particular if the outputs are where
    the inputs were), the inputs that remain are the data qubits, and the outputs that remain are exactly the wires of the data outputs: the
    hypothesis [data_wires] of the theorems in PropZXAnc.v *)
Theorem C73_fixed_wires : forall (p : nat -> nat) (w n : nat), w <= n ->
  (forall a b, w <= a -> a < b -> b < n -> p a < p b) -> (forall a, w <= a < n -> p a < n) ->
  exists outs, remaining_wires p w n = Some (seq 0 w, outs) /\ NoDup outs /\ forall x, In x outs <-> x < n /\ forall a, w <= a < n -> x <> p a.
Proof. exact remaining_ascending. Qed.
Print Assumptions C73_fixed_wires.
(** in general they are not: with ancillaries 1 and 2 on the output wires 1 and 0, the data wire 2 is fixed and wire 1 stays open *)
Theorem C73_fixed_wires_refuted :
  ~ (forall (p : nat -> nat) (w n : nat), w <= n -> (forall a b, a < n -> b < n -> p a = p b -> a = b) -> (forall a, a < n -> p a < n) ->
      exists ins outs, remaining_wires p w n = Some (ins, outs) /\ forall x, In x outs <-> x < n /\ forall a, w <= a < n -> x <> p a).
Proof.
  intros H. destruct (H (fun q => 2 - q) 1 3) as (ins & outs & E & S); [lia|lia|lia|]. vm_compute in E. injection E as <- <-.
  destruct (proj1 (S 1) (or_introl eq_refl)) as [_ N]. apply (N 1); lia.
Qed.
Print Assumptions C73_fixed_wires_refuted.
(** and with ancillaries 1 and 2 on the output wires 2 and 0 an element that does not exist is erased *)
Theorem C73_fixing_defined_refuted :
  ~ (forall (p : nat -> nat) (w n : nat), w <= n -> (forall a b, a < n -> b < n -> p a = p b -> a = b) -> (forall a, a < n -> p a < n) ->
      remaining_wires p w n <> None).
Proof.
  intros H. apply (H (fun q => match q with 0 => 1 | 1 => 2 | _ => 0 end) 1 3); [lia| | |reflexivity].
  - intros [|[|[|a]]] [|[|[|b]]]; lia.
  - intros [|[|[|a]]]; lia.
Qed.
Print Assumptions C73_fixing_defined_refuted.
Example C73_fixed_wires_example : remaining_wires (fun q => match q with 0 => 1 | 1 => 3 | 2 => 0 | _ => 2 end) 2 4 = Some ([0; 1], [1; 3]).
Proof. reflexivity. Qed.
