(** Specification vocabulary for generated profiles. No proofs. *)
From Coq Require Import String List Bool Arith ZArith NArith QArith Qabs.
From Verif Require Import PyConfig PyProfile ProfileGen.
Import ListNotations.
Local Open Scope string_scope.

(** the gates measured without controls, with their numbers of qubits and parameters *)
Definition plain : list (string * (nat * nat)) :=
  map (fun g => (g, (1, 0)%nat)) ["x"; "y"; "z"; "h"; "s"; "sdg"; "t"; "tdg"; "sx"; "sxdg"] ++
  map (fun g => (g, (1, 1)%nat)) ["p"; "rx"; "ry"; "rz"] ++ [("u", (1, 3)%nat)] ++
  map (fun g => (g, (2, 0)%nat)) ["swap"; "iswap"; "dcx"; "ecr"] ++ map (fun g => (g, (2, 1)%nat)) ["rxx"; "ryy"; "rzz"; "rzx"].
(** ... and with one control (the controlled U gate has a fourth parameter, its phase) *)
Definition controlled : list (string * (nat * nat)) :=
  map (fun g => (g, (1, 0)%nat)) ["x"; "y"; "z"; "h"; "sx"] ++ map (fun g => (g, (1, 1)%nat)) ["p"; "rx"; "ry"; "rz"] ++ [("u", (1, 4)%nat); ("swap", (2, 0)%nat)].
Fixpoint assoc {A} (l : list (string * A)) (g : string) : option A := match l with [] => None | (g', a) :: r => if String.eqb g' g then Some a else assoc r g end.
(** the number of ancillaries of an X gate with [nc] controls in a mode *)
Definition ancillas_needed (m : ancilla_mode) (nc : nat) : nat :=
  match m with NoAncilla => 0 | Recursion => if nc <=? 4 then 0 else 1 | VChain => nc - 2 end%nat.
(** the circuit whose cost is measured for a gate with [nc] controls: controls first, then the targets, then the ancillaries; None: not measured *)
Definition measured_circuit (m : ancilla_mode) (g : string) (nc : nat) : option call :=
  match nc with
  | 0%nat => match assoc plain g with Some (q, ps) => Some (Positional q g ps (seq 0 q)) | None => None end
  | 1%nat => match assoc controlled g with Some (q, ps) => Some (Positional (1 + q) ("c" ++ g) ps (seq 0 (1 + q))) | None => None end
  | _ => if (nc <=? 11)%nat then
           if String.eqb g "x" then let a := ancillas_needed m nc in Some (Keywords (nc + 1 + a) "mcx" 0 (seq 0 nc) nc (Some (seq (nc + 1) a, m)))
           else if String.eqb g "p" then Some (Keywords (nc + 1) "mcp" 1 (seq 0 nc) nc None)
           else None
         else None
  end.
(** gates that are phase gates of a fixed angle *)
Definition fixed_phase (g : string) : bool := existsb (String.eqb g) ["z"; "s"; "sdg"; "t"; "tdg"].
(** the names that occur in a profile *)
Definition profile_gates : list string := map fst plain.
(** the qubits a call uses, in its order *)
Definition call_qubits (c : call) : list nat :=
  match c with
  | Positional _ _ _ qs => qs
  | Keywords _ _ _ cs t a => cs ++ [t] ++ match a with Some (qs, _) => qs | None => [] end
  end.
Definition call_width (c : call) : nat := match c with Positional w _ _ _ => w | Keywords w _ _ _ _ _ => w end.
(** what reading a cost into an unsigned 64-bit number gives: a negative one wraps around, and one of more than 64 bits is refused *)
Definition cost_read (c : Z) : option N := if (Z.abs c <? 2 ^ 64)%Z then Some (Z.to_N (c mod 2 ^ 64)) else None.
