(** Vocabulary of C67. Definitions only. *)
From Coq Require Import BinNums NArith List.
From mathcomp Require Import all_ssreflect all_fingroup all_algebra.
From Verif Require Import Criterion Config SeqFlow SeqSpec ParFlow ParSpec Schemes DDCheck DDSpec Qubits DDSem.
Set Implicit Arguments.
Unset Strict Implicit.
Unset Printing Implicit Defensive.
Import GRing.Theory Num.Theory.
Local Open Scope ring_scope.

(** a parallel run without timeout in which no checker throws, with enough stimuli in the generator and a thread for every checker *)
Definition par_undisturbed {Stim Gen : Type} (e : env Stim Gen) (c : config) (g : Gen) : Prop :=
  choose_flow e c = FParallel /\ sane_sims c /\ enough_threads e c /\ no_exceptions e c /\ gen_supplies e g (maxSims (sim c)) /\ hasTimeout c = false.
(** the threads have been interleaved, on a fresh manager, until none of them can move any more; [x] is the final state *)
Definition run_to_end {Stim Gen : Type} (e : env Stim Gen) (c : config) (g : Gen) pp (x : pst Stim Gen) : Prop := reachable e c g pp x /\ stuck e x.
(** the ZX checker is run *)
Definition zx_runs {Stim Gen : Type} (e : env Stim Gen) (c : config) : Prop := runZXChecker (exec c) = true /\ e_transformable e = true.

(** the verdict [v] is the answer to whether [V1] and [V2] agree on all inputs with zeros on [A] *)
Definition right_answer (C : numClosedFieldType) (Lg : finType) (A : {set Lg}) (V1 V2 : mat C Lg) (v : criterion) : Prop :=
  [/\ v = Equivalent <-> V1 *m proj0 C A = V2 *m proj0 C A,
      v = EquivalentUpToGlobalPhase <-> exists w, [/\ `|w| = 1, w != 1 & V1 *m proj0 C A = w *: (V2 *m proj0 C A)] &
      v = NotEquivalent <-> forall w, V1 *m proj0 C A <> w *: (V2 *m proj0 C A)].
