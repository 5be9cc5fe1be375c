(** Vocabulary for C65. No proofs. *)
From Coq Require Import List Bool NArith Arith.
From Verif Require Import Criterion Config SeqFlow StateGen Prep Stim.

(** qubit [q] is in state |0> in the stimulus *)
Definition zero_on (s : stimulus) (q : nat) : Prop :=
  match s with
  | SBits l => nth q l false = false
  | SBases l => nth q l Bzero = Bzero
  | SStab x => st_qubits x <= q          (* outside the random Clifford circuit *)
  end.
(** the ancillary qubits are the last ones *)
Definition ancillaries_last {A} (c : circ A) : Prop := forall q q', q <= q' -> q' < q_n c -> q_anc c q = true -> q_anc c q' = true.
(** [q] is an ancillary qubit of both circuits *)
Definition both_ancillary {A} (c1 c2 : circ A) (q : nat) : Prop := q < q_n c1 /\ q < q_n c2 /\ q_anc c1 q = true /\ q_anc c2 q = true.
(** the flow takes its stimuli from setRandomInitialState on these circuits *)
Definition stimuli_of {A MT} (word : MT -> N * MT) (unif : N -> MT -> N * MT) (c1 c2 : circ A) (t : stateType) (e : env stimulus (gen MT)) : Prop :=
  forall g s g', e_gen e g = Some (s, g') <-> exists fuel, setRandomInitialState word unif (e_ndebug e) fuel c1 c2 t g = GState s g'.
