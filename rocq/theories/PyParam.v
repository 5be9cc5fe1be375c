(** Model of src/mqt/qcec/parameterized.py: the flow for parameterised circuits and the extraction of the linear system.
    No proofs in this file.

    Python floats are rationals (exact arithmetic). The checks themselves (check_parameterized_zx, check_instantiated,
    check_instantiated_random) and the measured times are inputs: they are arbitrary. *)
From Coq Require Import List Bool QArith.
From Verif Require Import Criterion.
Import ListNotations.

(** the fields of EquivalenceCheckingManager.Results that the flow reads or writes *)
Record presult := mkPResult { r_eq : criterion; r_check : Q; r_prep : Q; r_started : Q; r_performed : Q; r_inst : nat }.
(** what the individual steps give, should they be made *)
Record penv := mkPEnv {
  zx : presult;               (* check_parameterized_zx, lines 32-42 *)
  zero_time : Q;              (* run time of _instantiate_params_zero, lines 169-172 *)
  zero : presult;             (* check_instantiated of the zero instantiation *)
  phase_time : nat -> Q;      (* run time of _instantiate_params_phases in round i, lines 174-180 *)
  phase : nat -> presult;     (* check_instantiated in round i *)
  random : presult }.         (* check_instantiated_random, lines 94-106 *)

(** parameterized.py:23-29; a result costs check_time + preprocessing_time *)
Definition adjust (t d : Q) : Q := if Qeq_bool t 0 then 0 else t - d.
Definition cost (r : presult) : Q := r_check r + r_prep r.
Definition negative (t : Q) : bool := negb (Qle_bool 0 t).

(** lines 113-131: total_preprocessing_time, total_runtime, total_simulations_started, total_simulations_finished *)
Record stats := mkStats { t_prep : Q; t_run : Q; t_started : Q; t_finished : Q }.
Definition update (s : stats) (r : presult) : stats :=
  mkStats (t_prep s + r_prep r) (t_run s + r_check r) (t_started s + r_started r) (t_finished s + r_performed r).
Definition write (s : stats) (i : nat) (r : presult) : presult := mkPResult (r_eq r) (t_run s) (t_prep s) (t_started s) (t_finished s) i.
Definition no_info (r : presult) : presult := mkPResult NoInformation (r_check r) (r_prep r) (r_started r) (r_performed r) (r_inst r).

(** lines 196-211: [k] rounds from round [i] on. [inl]: the function returns; [inr]: timeout, runtime of the last instantiation and totals after
    the loop. The second component: the results of the instantiated checks made, in order *)
Fixpoint rounds (e : penv) (k i : nat) (timeout runtime : Q) (s : stats) (log : list presult) : (presult + Q * Q * stats) * list presult :=
  match k with
  | O => (inr (timeout, runtime, s), log)
  | S k' =>
      let runtime := phase_time e i in
      let timeout := adjust timeout runtime in
      let res := phase e i in
      let log := log ++ [res] in
      let timeout := adjust timeout (cost res) in
      if negative timeout then (inl (no_info (write s (i + 2) res)), log)
      else let s := update s res in
           if criterion_eqb (r_eq res) NotEquivalent then (inl (write s (i + 2) res), log)
           else rounds e k' (S i) timeout runtime s log
  end.

(** parameterized.py:109-220 for the configured timeout (0: none) and number of additional instantiations: the returned result and the
    instantiated checks made *)
Definition check_parameterized (e : penv) (configured : Q) (n : nat) : presult * list presult :=
  let res := zx e in
  if consideredEquivalent (r_eq res) then (res, [])
  else
    let s := update (mkStats 0 0 0 0) res in
    let timeout := adjust configured (cost res) in
    let runtime := zero_time e in
    let timeout := adjust timeout runtime in
    if negative timeout then (no_info (write s 1 res), [])
    else
      let res := zero e in
      let s := update s res in
      if criterion_eqb (r_eq res) NotEquivalent then (write s 1 res, [res])
      else match rounds e n 0 timeout runtime s [res] with
           | (inl r, log) => (r, log)
           | (inr (timeout, runtime, s), log) =>
               let res := random e in
               let log := log ++ [res] in
               let timeout := adjust timeout runtime in
               let res := if negative timeout then no_info res else res in
               let s := update s res in
               (write s (n + 2) res, log)
           end.

(** ** the linear system, parameterized.py:45-79. A parameter is a number (the position in symb_params); a symbolic gate parameter is
    the set of its parameters and its value under an assignment (bind) *)
Record pexpr := mkExpr { x_params : list nat; x_value : (nat -> Q) -> Q }.
(** lines 66-67: bind of dict.fromkeys(expr.parameters, 0) *)
Definition zero_map : nat -> Q := fun _ => 0.
(** lines 73-75 *)
Definition one_map (p : nat) : nat -> Q := fun i => if Nat.eqb i p then 1 else 0.
(** lines 64-67 *)
Definition offset (x : pexpr) : Q := - x_value x zero_map.
Definition offsets (xs : list pexpr) : list Q := map offset xs.
(** lines 69-77: entry (row, col) *)
Definition entry (x : pexpr) (p : nat) : Q := if existsb (Nat.eqb p) (x_params x) then x_value x (one_map p) + offset x else 0.
Definition equs (n : nat) (xs : list pexpr) : list (list Q) := map (fun x => map (entry x) (seq 0 n)) xs.
