(** Model of the result / option enumerations and their textual forms.
    No proofs in this file. *)
From Coq Require Import String Ascii List Bool NArith.
Import ListNotations.
Open Scope string_scope.

(** include/EquivalenceCriterion.hpp:13-21 *)
Inductive criterion : Type :=
| NotEquivalent
| Equivalent
| NoInformation
| ProbablyEquivalent
| EquivalentUpToGlobalPhase
| EquivalentUpToPhase
| ProbablyNotEquivalent.

(** the enumerators' underlying values, include/EquivalenceCriterion.hpp:14-20 *)
Definition criterion_code (c : criterion) : N :=
  match c with
  | NotEquivalent => 0
  | Equivalent => 1
  | NoInformation => 2
  | ProbablyEquivalent => 3
  | EquivalentUpToGlobalPhase => 4
  | EquivalentUpToPhase => 5
  | ProbablyNotEquivalent => 6
  end%N.

(** [operator==] on the enum (generated by the C++ compiler) *)
Definition criterion_eqb (a b : criterion) : bool := N.eqb (criterion_code a) (criterion_code b).

(** include/EquivalenceCriterion.hpp:23-40 [toString]; the C++ [default] branch is
    NoInformation, the only enumerator left. *)
Definition criterion_toString (c : criterion) : string :=
  match c with
  | NotEquivalent => "not_equivalent"
  | Equivalent => "equivalent"
  | ProbablyEquivalent => "probably_equivalent"
  | EquivalentUpToGlobalPhase => "equivalent_up_to_global_phase"
  | EquivalentUpToPhase => "equivalent_up_to_phase"
  | ProbablyNotEquivalent => "probably_not_equivalent"
  | NoInformation => "no_information"
  end.

(** include/EquivalenceCriterion.hpp:42-67 [fromString] (the message on stderr for an
    unknown string is not modelled). *)
Definition criterion_fromString (s : string) : criterion :=
  if (s =? "not_equivalent") || (s =? "0") then NotEquivalent else
  if (s =? "equivalent") || (s =? "1") then Equivalent else
  if (s =? "probably_equivalent") || (s =? "2") then ProbablyEquivalent else
  if (s =? "equivalent_up_to_global_phase") || (s =? "3") then EquivalentUpToGlobalPhase else
  if (s =? "equivalent_up_to_phase") || (s =? "4") then EquivalentUpToPhase else
  if (s =? "no_information") || (s =? "5") then NoInformation else
  if (s =? "probably_not_equivalent") || (s =? "6") then ProbablyNotEquivalent else
  NoInformation.

(** std::isspace in the "C" locale: space, \t \n \v \f \r *)
Definition is_space (c : ascii) : bool :=
  let n := N_of_ascii c in
  N.eqb n 32 || (N.leb 9 n && N.leb n 13).

(** the token part of [in >> token]: skip leading white space ... *)
Fixpoint skip_space (s : string) : string :=
  match s with
  | EmptyString => EmptyString
  | String c r => if is_space c then skip_space r else s
  end.

(** ... and take characters up to the next white space; returns token and rest *)
Fixpoint span_token (s : string) : string * string :=
  match s with
  | EmptyString => (EmptyString, EmptyString)
  | String c r =>
      if is_space c then (EmptyString, s)
      else let (t, rest) := span_token r in (String c t, rest)
  end.

(** [std::istream >> std::string] on the remaining characters of a stream. *)
Definition read_token (s : string) : string * string := span_token (skip_space s).

(** outcome of a stream extraction: the stream fails (failbit) and the target keeps its
    value, or a value is read and the rest of the stream remains. *)
Inductive extraction (A : Type) : Type :=
| Extracted (a : A) (rest : string)
| ExtractFail.
Arguments Extracted {A} _ _.
Arguments ExtractFail {A}.

(** include/EquivalenceCriterion.hpp:69-81, and identically
    ApplicationScheme.hpp:67-79 and StateType.hpp:47-58 *)
Definition stream_extract {A} (from : string -> A) (s : string) : extraction A :=
  let (tok, rest) := read_token s in
  match tok with
  | EmptyString => ExtractFail
  | _ => Extracted (from tok) rest
  end.

(** include/EquivalenceCheckingManager.hpp:70-80 *)
Definition consideredEquivalent (c : criterion) : bool :=
  match c with
  | Equivalent | ProbablyEquivalent | EquivalentUpToGlobalPhase | EquivalentUpToPhase => true
  | _ => false
  end.

(** include/checker/dd/applicationscheme/ApplicationScheme.hpp:18-24 *)
Inductive scheme : Type := Sequential | OneToOne | Lookahead | GateCost | Proportional.

Definition scheme_code (s : scheme) : N :=
  match s with
  | Sequential => 0 | OneToOne => 1 | Lookahead => 2 | GateCost => 3 | Proportional => 4
  end%N.

Definition scheme_eqb (a b : scheme) : bool := N.eqb (scheme_code a) (scheme_code b).

(** ApplicationScheme.hpp:26-40 *)
Definition scheme_toString (s : scheme) : string :=
  match s with
  | Sequential => "sequential"
  | OneToOne => "one_to_one"
  | Lookahead => "lookahead"
  | GateCost => "gate_cost"
  | Proportional => "proportional"
  end.

(** ApplicationScheme.hpp:42-65 *)
Definition scheme_fromString (s : string) : scheme :=
  if (s =? "sequential") || (s =? "0") || (s =? "reference") then Sequential else
  if (s =? "one_to_one") || (s =? "1") || (s =? "naive") then OneToOne else
  if (s =? "lookahead") || (s =? "2") then Lookahead else
  if (s =? "gate_cost") || (s =? "3") || (s =? "compilation_flow") then GateCost else
  if (s =? "proportional") || (s =? "4") then Proportional else
  Proportional.

(** include/checker/dd/simulation/StateType.hpp:13-17 *)
Inductive stateType : Type := ComputationalBasis | Random1QBasis | Stabilizer.

Definition stateType_code (s : stateType) : N :=
  match s with ComputationalBasis => 0 | Random1QBasis => 1 | Stabilizer => 2 end%N.

Definition stateType_eqb (a b : stateType) : bool := N.eqb (stateType_code a) (stateType_code b).

(** StateType.hpp:19-28 *)
Definition stateType_toString (s : stateType) : string :=
  match s with
  | Random1QBasis => "random_1Q_basis"
  | Stabilizer => "stabilizer"
  | ComputationalBasis => "computational_basis"
  end.

(** StateType.hpp:30-45 *)
Definition stateType_fromString (s : string) : stateType :=
  if (s =? "computational_basis") || (s =? "0") || (s =? "classical") then ComputationalBasis else
  if (s =? "random_1Q_basis") || (s =? "1") || (s =? "local_quantum") then Random1QBasis else
  if (s =? "stabilizer") || (s =? "2") || (s =? "global_quantum") then Stabilizer else
  ComputationalBasis.

(** decimal digit strings used as numeric codes on the command line *)
Definition digit_string (n : N) : string :=
  String (ascii_of_N (48 + n)) EmptyString.
