(** Vocabulary of C68: from two circuits handed to the manager's constructor to the verdict of a run. Definitions only. *)
From Coq Require Import BinNums NArith List Arith.
From mathcomp Require Import all_ssreflect all_fingroup all_algebra.
From Verif Require Import Criterion Config SeqFlow SeqSpec VerdictSpec ParFlow ParSpec Perm PermSpec Prep PrepSpec Passes PassesSpec StateGen Stim StimSpec
  Schemes DDCheck DDSpec Qubits DDSem DDFlow PrepSem Choice ParDecide.
Set Implicit Arguments.
Unset Strict Implicit.
Unset Printing Implicit Defensive.
Import GRing.Theory Num.Theory.
Local Open Scope ring_scope.

(** the manager's configuration after the constructor (src/EquivalenceCheckingManager.cpp:384-405): the fallback may have replaced the
    alternating checker, and the number of simulations may have been lowered *)
Definition constructed (c : config) (s : settings) : config :=
  mkConfig (mkExecution (numericalTolerance (exec c)) (parallel (exec c)) (nthreads (exec c)) (timeout (exec c)) (Passes.s_con s)
              (runSimulationChecker (exec c)) (Passes.s_alt s) (runZXChecker (exec c)))
    (opts c) (app c) (func c)
    (mkSimulation (fidelityThreshold (sim c)) (s_maxSims s) (stateTyp (sim c)) (seed (sim c)) (storeCEXinput (sim c)) (storeCEXoutput (sim c)))
    (par c).

(** an ancillary qubit is read out where it was, or not at all *)
Definition plain_ancillaries {A} (c : circ A) : Prop := forall p q, q_anc c q = true -> maps (q_lay c) p q -> PrepSpec.undisturbed c p q.
(** the circuits' own ancillaries: the same qubits as far as both circuits have them, the last ones of the first circuit, plainly read out *)
Definition ancillaries_agree {A} (c1 c2 : circ A) : Prop :=
  (forall q, (q < Nat.min (q_n c1) (q_n c2))%coq_nat -> q_anc c1 q = q_anc c2 q) /\ ancillaries_last c1.
(** no qubit is ancillary *)
Definition no_ancillaries {A} (c : circ A) : Prop := forall q, q_anc c q = false.

Section Good.
Variable C : numClosedFieldType.
Local Notation gate := (gate C nat_eqType).
Local Notation op := (op nat gate).
Local Notation circ := (circ op).
(** a proper circuit of unitary gates, seen on [n.+1] qubits *)
Definition good_circuit (n : nat) (c : circ) : Prop :=
  [/\ wf_circ c, acts_inside c, garbage_unread c, plain_ancillaries c & unitary_circuit (as_circuit n c)].
(** a pass of the circuit optimiser that is worth its name on [n.+1] qubits: the result is again such a circuit, with the same qubits and
    ancillaries, and does the same *)
Definition keeps_meaning (n : nat) (f : circ -> circ) : Prop := forall c : circ, good_circuit n c ->
  [/\ good_circuit n (f c), q_n (f c) = q_n c, forall q, q_anc (f c) q = q_anc c q &
      forall V, realises (as_circuit n (f c)) V -> realises (as_circuit n c) V].
End Good.

(** the configured checkers can be constructed (no look-ahead scheme where it is not supported, readable profile) *)
Definition checkers_constructible {Stim Gen : Type} (e : env Stim Gen) (c : config) : Prop :=
  [/\ runSimulationChecker (exec c) = true -> ctor_throws e c KSim = false,
      runAlternatingChecker (exec c) = true -> ctor_throws e c KAlt = false,
      runConstructionChecker (exec c) = true -> ctor_throws e c KCon = false &
      runZXChecker (exec c) = true -> e_zx_perm_ok e = true].
(** a sequential run on a fresh manager with configuration [c] that no timeout interrupts, with enough stimuli in the generator *)
Definition plain_sequential_run {Stim Gen : Type} (fuel : nat) (e : env Stim Gen) (c : config) (ma : mgr Stim Gen) : Prop :=
  [/\ m_cfg ma = c, r_performed (m_res ma) = 0%num, choose_flow e c = FSequential, never_fires e c & gen_supplies e (m_gen ma) (maxSims (sim c))] /\
  (maxSims (sim c) < N.of_nat fuel)%num /\ (runSimulationChecker (exec c) = true -> maxSims (sim c) = 0%num -> e_ndebug e = true).
(** the same for a parallel run *)
Definition plain_parallel_run {Stim Gen : Type} (e : env Stim Gen) (c : config) (g : Gen) : Prop :=
  [/\ choose_flow e c = FParallel, sane_sims c, enough_threads e c, gen_supplies e g (maxSims (sim c)) & hasTimeout c = false].
