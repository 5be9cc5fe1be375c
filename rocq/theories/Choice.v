(** Vocabulary of C66. Definitions only. *)
From Coq Require Import BinNums NArith List.
From Verif Require Import Criterion Config SeqFlow SeqSpec VerdictSpec.

(** a sequential run on a fresh manager that neither timeouts nor exceptions disturb, with enough stimuli in the generator *)
Definition undisturbed {Stim Gen : Type} (fuel : nat) (e : env Stim Gen) (m : mgr Stim Gen) : Prop :=
  choose_flow e (m_cfg m) = FSequential /\ never_fires e (m_cfg m) /\ no_exceptions e (m_cfg m) /\ r_performed (m_res m) = 0%N /\
  exists l g', draws e (m_gen m) l g' /\ N.of_nat (length l) = maxSims (sim (m_cfg m)) /\ (length l < fuel)%nat /\
    (runSimulationChecker (exec (m_cfg m)) = true -> l = nil -> e_ndebug e = true).
(** the alternating or the construction checker is configured *)
Definition exact_configured (c : config) : Prop := runAlternatingChecker (exec c) = true \/ runConstructionChecker (exec c) = true.
