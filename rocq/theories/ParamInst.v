(** Model of the instantiation of parameterised circuits in src/mqt/qcec/parameterized.py: extracting the symbolic gate parameters,
    binding parameters to values and rounding, for circuits with operations. No proofs in this file.

    Python floats are rationals (exact arithmetic). A circuit is a [circ] (Prep.v); numpy's pseudo-inverse and the random number generator
    are inputs. *)
From Coq Require Import List Bool QArith Qabs.
From Verif Require Import Perm Prep PyParam.
Import ListNotations.

(** an entry of operation.params (parameterized.py:53-61): a number or a symbolic expression *)
Inductive gparam := PNum (x : Q) | PSym (x : pexpr).
(** an instruction of a parameterised circuit: its parameters, whether the operation is mutable (line 153), and the operation that it is once its
    parameters are numbers *)
Record pop (Op : Type) := mkPop { o_params : list gparam; o_mutable : bool; o_build : list Q -> Op }.
Arguments mkPop {Op}. Arguments o_params {Op}. Arguments o_mutable {Op}. Arguments o_build {Op}.

(** QuantumCircuit.assign_parameters (qiskit, recalled), used in lines 103-104 and 147-148: the numbers that the parameters become *)
Definition gvalue (a : nat -> Q) (g : gparam) : Q := match g with PNum x => x | PSym x => x_value x a end.
Definition values_of {Op} (a : nat -> Q) (o : pop Op) : list Q := map (gvalue a) (o_params o).
(** lines 150-158: values below the tolerance become 0 in mutable operations *)
Definition round0 (tol x : Q) : Q := if Qle_bool tol (Qabs.Qabs x) then x else 0.
Definition rounded {Op} (tol : Q) (a : nat -> Q) (o : pop Op) : list Q := if o_mutable o then map (round0 tol) (values_of a o) else values_of a o.

(** the circuit with other operations *)
Definition with_ops {A B} (c : circ A) (l : list B) : circ B := mkCirc l (q_n c) (q_lay c) (q_out c) (q_anc c) (q_gar c).
(** the circuit at the values [a] of its parameters *)
Definition bind {Op} (a : nat -> Q) (c : circ (pop Op)) : circ Op := with_ops c (map (fun o => o_build o (values_of a o)) (q_ops c)).
(** lines 139-163 *)
Definition bind_rounded {Op} (tol : Q) (a : nat -> Q) (c : circ (pop Op)) : circ Op := with_ops c (map (fun o => o_build o (rounded tol a o)) (q_ops c)).

(** lines 53-61: the symbolic gate parameters of both circuits in order *)
Definition symbolic (g : gparam) : list pexpr := match g with PNum _ => [] | PSym x => [x] end.
Definition symb_exprs {Op} (c1 c2 : circ (pop Op)) : list pexpr := flat_map (fun o => flat_map symbolic (o_params o)) (q_ops c1 ++ q_ops c2).

(** lines 143-146: the values that the pseudo-inverse gives for the right-hand side [b], with [n] parameters *)
Definition solution {Op} (pinv : list (list Q) -> list Q -> nat -> Q) (n : nat) (c1 c2 : circ (pop Op)) (b : list Q) : nat -> Q :=
  pinv (equs n (symb_exprs c1 c2)) b.
(** lines 169-172 *)
Definition zero_values {Op} pinv n (c1 c2 : circ (pop Op)) : nat -> Q := solution pinv n c1 c2 (offsets (symb_exprs c1 c2)).
(** lines 174-180, for the phases that the generator chooses *)
Definition phase_values {Op} pinv n (c1 c2 : circ (pop Op)) (phases : list Q) : nat -> Q :=
  solution pinv n c1 c2 (map (fun p => fst p + snd p) (combine phases (offsets (symb_exprs c1 c2)))).
