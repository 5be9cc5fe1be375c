(** Specification vocabulary for the stimuli generator. No proofs. *)
From Coq Require Import List Bool NArith Arith.
From Verif Require Import Criterion Config SeqFlow StateGen.
Import ListNotations.

Section Spec.
Context {MT : Type}.

(** a uniform distribution over 0..hi yields only such values (the contract of std::uniform_int_distribution) *)
Definition in_range (unif : N -> MT -> N * MT) : Prop := forall hi m, (fst (unif hi m) <= hi)%N.
(** a fair source: from every engine state every value of the range eventually comes up *)
Definition fair (unif : N -> MT -> N * MT) : Prop := forall hi m v, (v <= hi)%N -> exists n, drawn MT unif n hi m = v.

(** the computational basis state number [v] on the [r] lowest of [total] qubits *)
Definition basis_state (total r : nat) (v : N) (bs : list bool) : Prop :=
  length bs = total /\
  (forall i, i < r -> nth i bs false = N.testbit v (N.of_nat i)) /\
  (forall i, r <= i -> nth i bs false = false).

(** the stimuli [l] are generated one after the other by calls that all return (however long each took) *)
Inductive stimuli (word : MT -> N * MT) (unif : N -> MT -> N * MT) (ndebug : bool) (total anc : nat) (t : stateType)
  : gen MT -> list stimulus -> gen MT -> Prop :=
| stim_nil g : stimuli word unif ndebug total anc t g [] g
| stim_cons g fuel s g1 l g2 :
    generate MT word unif ndebug fuel total anc t g = GState s g1 ->
    stimuli word unif ndebug total anc t g1 l g2 -> stimuli word unif ndebug total anc t g (s :: l) g2.

(** the call never returns *)
Definition never_returns (word : MT -> N * MT) (unif : N -> MT -> N * MT) (ndebug : bool) (total anc : nat) (t : stateType) (g : gen MT) : Prop :=
  forall fuel, generate MT word unif ndebug fuel total anc t g = GOut.
(** the call returns a stimulus *)
Definition returns (word : MT -> N * MT) (unif : N -> MT -> N * MT) (ndebug : bool) (total anc : nat) (t : stateType) (g : gen MT) : Prop :=
  exists fuel s g', generate MT word unif ndebug fuel total anc t g = GState s g'.

(** every basis state on [r] qubits has been used *)
Definition all_used (r : nat) (g : gen MT) : Prop := forall v, (v < 2 ^ N.of_nat r)%N -> In v (g_used g).
(** the used set holds distinct states on [r] qubits (true of a fresh generator and kept by every call) *)
Definition used_ok (r : nat) (g : gen MT) : Prop := NoDup (g_used g) /\ forall v, In v (g_used g) -> (v < 2 ^ N.of_nat r)%N.
End Spec.

(** the flow's generator is the computational-basis generator for circuits with [total] qubits, [anc] of them not random *)
Definition uses_generator {MT} (word : MT -> N * MT) (unif : N -> MT -> N * MT) (total anc : nat) (e : SeqFlow.env stimulus (gen MT)) : Prop :=
  forall g s g', SeqFlow.e_gen e g = Some (s, g') <-> exists fuel, generate MT word unif (SeqFlow.e_ndebug e) fuel total anc ComputationalBasis g = GState s g'.

(** ** a concrete random source for the examples: a counter, its values scrambled for whole words *)
Definition cword (m : N) : N * N := ((m * 6364136223846793005 + 1442695040888963407) mod 2 ^ 64, (m + 1))%N.
Definition cunif (hi : N) (m : N) : N * N := ((m mod (hi + 1)), (m + 1))%N.
(** the generator of computational basis states with it *)
Definition cgen (nd : bool) (total anc : nat) (g : gen N) : option (stimulus * gen N) :=
  match generate N cword cunif nd (N.to_nat (2 ^ N.of_nat (total - anc))) total anc ComputationalBasis g with
  | GState s g' => Some (s, g') | _ => None end.

(** an environment around the counter generator, in which every simulation agrees *)
Definition gen_env (total anc : nat) : env stimulus (gen N) :=
  mkEnv false true true false true true true true MEquivalent MEquivalent (fun _ => SEquivalent) ZFail
    (cgen true total anc) clear None (fun _ => true).
