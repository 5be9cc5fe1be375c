(** Model of src/checker/dd/simulation/StateGenerator.cpp and of the part of the manager's constructor that bounds the number of
    simulations. No proofs in this file.

    The Mersenne twister and std::uniform_int_distribution are parameters: [word g] is one call of [mt()] and [unif hi g] one
    draw of a uniform distribution over 0..hi. Basis states are lists with one entry per qubit, lowest qubit first; the
    decision diagram made of them (dd::Package::makeBasisState) is not modelled. A retry loop takes fuel: [GOut] means that the
    fuel did not suffice; a call that never returns is one that gives [GOut] for every fuel. *)
From Coq Require Import List Bool NArith Arith.
From Verif Require Import Criterion Config.
Import ListNotations.

Section StateGen.
Variable MT : Type.
Variable word : MT -> N * MT.
Variable unif : N -> MT -> N * MT.
Variable seeded : N -> MT.      (* mt.seed(seed) *)

(** StateGenerator.hpp:49-52 *)
Record gen := mkGen { g_mt : MT; g_used : list N }.

(** StateGenerator.cpp:160-172; [device] is the engine seeded from std::random_device *)
Definition seedGenerator (device : MT) (seed : N) (g : gen) : gen :=
  mkGen (if N.eqb seed 0 then device else seeded seed) (g_used g).
(** StateGenerator.hpp:20-23 *)
Definition newGenerator (device : MT) (seed : N) : gen := seedGenerator device seed (mkGen device []).
(** StateGenerator.hpp:46 *)
Definition clear (g : gen) : gen := mkGen (g_mt g) [].

Inductive gres (A : Type) :=
| GState (a : A) (g : gen)
| GAbort                 (* assert at line 54 fails *)
| GUndefined             (* more ancillaries than qubits; log2(0) *)
| GOut.                  (* the retry loop is still running *)
Arguments GState {A}. Arguments GAbort {A}. Arguments GUndefined {A}. Arguments GOut {A}.

(** StateGenerator.cpp:58-63: insert until the state is new *)
Fixpoint retry (fuel : nat) (hi : N) (used : list N) (m : MT) : option (N * MT) :=
  match fuel with
  | O => None
  | S f => let '(v, m') := unif hi m in
           if existsb (N.eqb v) used then retry f hi used m' else Some (v, m')
  end.

Fixpoint set_nth (l : list bool) (i : nat) : list bool :=
  match l, i with [], _ => [] | _ :: t, O => true :: t | b :: t, S j => b :: set_nth t j end.
(** the loops at lines 66-70 and 81-86: set the bits [f] says, for i < r, in a vector of [total] false *)
Definition fill (total r : nat) (f : nat -> bool) : list bool :=
  fold_left (fun bs i => if f i then set_nth bs i else bs) (seq 0 r) (repeat false total).

(** lines 73-79: [n] calls of mt() *)
Fixpoint words (n : nat) (m : MT) : list N * MT :=
  match n with
  | O => ([], m)
  | S k => let '(w, m1) := word m in let '(ws, m2) := words k m1 in (w :: ws, m2)
  end.

(** generateRandomComputationalBasisState, StateGenerator.cpp:43-91. [ndebug]: asserts are compiled out. Simplification: more
    ancillaries than qubits (the unsigned difference would wrap around and the bit loop write out of bounds) is [GUndefined]
    at once; std::ceil(double(r) / 64) is exact (r < 2^53) *)
Definition genComputational (ndebug : bool) (fuel : nat) (total anc : nat) (g : gen) : gres (list bool) :=
  if total <? anc then GUndefined else
  let r := total - anc in
  if r <=? 63 then
    let maxStates := N.shiftl 1 (N.of_nat r) in
    if negb ndebug && N.eqb (N.of_nat (length (g_used g))) maxStates then GAbort else
    match retry fuel (maxStates - 1) (g_used g) (g_mt g) with
    | None => GOut
    | Some (v, m') => GState (fill total r (fun i => N.testbit v (N.of_nat i))) (mkGen m' (v :: g_used g))
    end
  else
    let '(ws, m') := words ((r + 63) / 64) (g_mt g) in
    GState (fill total r (fun i => N.testbit (nth (i / 64) ws 0%N) (N.of_nat (i mod 64)))) (mkGen m' (g_used g)).

(** dd::BasisStates (mqt-core), in the order of the enumeration *)
Inductive bstate := Bzero | Bone | Bplus | Bminus | Bright | Bleft.
(** the switch at lines 103-124 *)
Definition bstate_of (n : N) : bstate :=
  match n with 0%N => Bzero | 1%N => Bone | 2%N => Bplus | 3%N => Bminus | 4%N => Bright | 5%N => Bleft | _ => Bzero end.

(** lines 102-125: [n] draws of random1QBasisDistribution (0..5) *)
Fixpoint bases (n : nat) (m : MT) : list bstate * MT :=
  match n with
  | O => ([], m)
  | S k => let '(d, m1) := unif 5 m in let '(bs, m2) := bases k m1 in (bstate_of d :: bs, m2)
  end.

(** generateRandom1QBasisState, StateGenerator.cpp:93-129 *)
Definition gen1Q (total anc : nat) (g : gen) : gres (list bstate) :=
  if total <? anc then GUndefined else
  let r := total - anc in
  let '(bs, m') := bases r (g_mt g) in
  GState (bs ++ repeat Bzero (total - r)) (mkGen m' (g_used g)).

(** std::round(std::log2(r)) for r > 0, computed exactly: with L = floor(log2 r), log2 r >= L + 1/2 iff r^2 >= 2^(2L+1) *)
Definition round_log2 (r : N) : N :=
  let l := N.log2 r in if N.leb (N.shiftl 1 (2 * l + 1)) (r * r) then (l + 1)%N else l.

(** generateRandomStabilizerState, StateGenerator.cpp:131-158: the state of a random Clifford circuit (qubits, depth, seed) on the
    lowest qubits, |0> nodes above; the Clifford circuit and its simulation are mqt-core's and not modelled. For r = 0 the
    conversion of log2(0) = -infinity to std::size_t is undefined *)
Record stab := mkStab { st_qubits : nat; st_depth : N; st_seed : N; st_zeros : nat }.
Definition genStabilizer (total anc : nat) (g : gen) : gres stab :=
  if total <? anc then GUndefined else
  let r := total - anc in
  if r =? 0 then GUndefined else
  let '(s, m') := word (g_mt g) in
  GState (mkStab r (round_log2 (N.of_nat r)) s (length (seq r (total - r)))) (mkGen m' (g_used g)).

Inductive stimulus := SBits (l : list bool) | SBases (l : list bstate) | SStab (s : stab).
Definition mapg {A B} (f : A -> B) (r : gres A) : gres B :=
  match r with GState a g => GState (f a) g | GAbort => GAbort | GUndefined => GUndefined | GOut => GOut end.

(** generateRandomState, StateGenerator.cpp:29-41 *)
Definition generate (ndebug : bool) (fuel : nat) (total anc : nat) (t : stateType) (g : gen) : gres stimulus :=
  match t with
  | Random1QBasis => mapg SBases (gen1Q total anc g)
  | Stabilizer => mapg SStab (genStabilizer total anc g)
  | ComputationalBasis => mapg SBits (genComputational ndebug fuel total anc g)
  end.

(** the value after [n] further draws of the distribution: the random sequence the retry loop sees *)
Fixpoint drawn (n : nat) (hi : N) (m : MT) : N := match n with O => fst (unif hi m) | S k => drawn k hi (snd (unif hi m)) end.
Fixpoint engine (n : nat) (hi : N) (m : MT) : MT := match n with O => m | S k => engine k hi (snd (unif hi m)) end.
End StateGen.
Arguments GState {MT A}. Arguments GAbort {MT A}. Arguments GUndefined {MT A}. Arguments GOut {MT A}.
Arguments mkGen {MT}. Arguments g_mt {MT}. Arguments g_used {MT}. Arguments clear {MT}.

(** the end of the constructor, src/EquivalenceCheckingManager.cpp:396-405. [None]: 1ULL << nq with nq >= 64 is undefined *)
Definition clamp_sims (runSim : bool) (t : stateType) (nq : N) (maxSims : N) : option N :=
  match runSim, t with
  | true, ComputationalBasis =>
      if N.leb 64 nq then None
      else let uniqueStates := N.shiftl 1 nq in
           Some (if N.leb nq 63 && N.ltb uniqueStates maxSims then uniqueStates else maxSims)
  | _, _ => Some maxSims
  end.
