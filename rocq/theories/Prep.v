(** Model of the preparation of the circuits in the manager's constructor: stripIdleQubits, setupAncillariesAndGarbage,
    DDAlternatingChecker::canHandle and the fallback. No proofs in this file.

    A circuit is the part of qc::QuantumComputation that these functions read and write: the operations, the number of qubits
    (getNqubits), the initial layout and the output permutation (std::map, see Perm.v), the ancillary and garbage flags of the
    logical qubits. Registers and the split of getNqubits into primary and ancillary qubits are not modelled. The methods of
    qc::QuantumComputation are mqt-core's (source not in /repo), recalled: removeQubit, addAncillaryRegister, addAncillaryQubit,
    setLogicalQubitGarbage, isIdleQubit, containsLogicalQubit, Permutation::maxValue. *)
From Coq Require Import List Bool Arith.
From Verif Require Import Perm.
Import ListNotations.

Inductive pres (T : Type) := PVal (x : T) | PThrow | PAbort | PUndefined.
Arguments PVal {T}. Arguments PThrow {T}. Arguments PAbort {T}. Arguments PUndefined {T}.
Definition pbind {T U} (m : pres T) (f : T -> pres U) : pres U :=
  match m with PVal x => f x | PThrow => PThrow | PAbort => PAbort | PUndefined => PUndefined end.

(** std::map::erase *)
Definition qerase (k : nat) (m : qmap) : qmap := filter (fun e => negb (fst e =? k)) m.
(** std::map::insert: does not overwrite *)
Definition qinsert (k v : nat) (m : qmap) : qmap := match qfind k m with Some _ => m | None => qset k v m end.
(** the first key with the given value *)
Fixpoint qkey (v : nat) (m : qmap) : option nat :=
  match m with [] => None | (i, w) :: r => if w =? v then Some i else qkey v r end.
(** Permutation::maxValue, of a non-empty map *)
Definition maxValue (m : qmap) : nat := fold_left (fun acc e => Nat.max acc (snd e)) m 0.

Section Prep.
Variable A : Type.                  (* qc::Operation *)
Variable actsOn : A -> nat -> bool. (* Operation::actsOn a physical qubit *)

Record circ := mkCirc { q_ops : list A; q_n : nat; q_lay : qmap; q_out : qmap; q_anc : nat -> bool; q_gar : nat -> bool }.

(** QuantumComputation::isIdleQubit *)
Definition isIdle (c : circ) (p : nat) : bool := negb (existsb (fun o => actsOn o p) (q_ops c)).
(** QuantumComputation::removeQubit (recalled): erases the physical qubit from both maps, shifts the flags; returns the physical
    qubit and its output. [None]: the logical qubit is not in the layout, an exception *)
Definition shift (n l : nat) (f : nat -> bool) : nat -> bool := fun i => if i <? l then f i else if S i <? n then f (S i) else false.
Definition removeQubit (c : circ) (l : nat) : option (circ * (nat * option nat)) :=
  match qkey l (q_lay c) with
  | None => None
  | Some p => Some (mkCirc (q_ops c) (q_n c - 1) (qerase p (q_lay c)) (qerase p (q_out c)) (shift (q_n c) l (q_anc c)) (shift (q_n c) l (q_gar c)),
                    (p, qfind p (q_out c)))
  end.

(** decrementLogicalQubitsInLayoutAboveIndex, src/EquivalenceCheckingManager.cpp:39-46 *)
Definition decAbove (l : nat) (m : qmap) : qmap := map (fun e => (fst e, if l <? snd e then snd e - 1 else snd e)) m.
(** lines 167-176: for both maps of a circuit *)
Definition decBoth (l : nat) (c : circ) : circ :=
  mkCirc (q_ops c) (q_n c) (decAbove l (q_lay c)) (decAbove l (q_out c)) (q_anc c) (q_gar c).

(** lines 75-95, 121-137 and 142-156: nothing happened to the qubit *)
Definition safeToRemove (c : circ) (p l : nat) : bool :=
  let physicalUsed := match qfind p (q_out c) with Some _ => true | None => false end in
  let logicalUsed := existsb (fun e => snd e =? l) (q_out c) in
  (negb physicalUsed && negb logicalUsed) || match qfind p (q_out c) with Some v => v =? l | None => false end.

(** src/EquivalenceCheckingManager.cpp:57-178, the body of the loop for physical qubit [p] of the larger circuit; state: larger
    circuit, smaller circuit, qubitDifference *)
Definition strip_step (ndebug : bool) (st : circ * circ * nat) (p : nat) : pres (circ * circ * nat) :=
  let '(L, Sm, diff) := st in
  if negb (isIdle L p) then PVal st
  else match qfind p (q_lay L) with
  | None => PThrow
  | Some l =>
      if (0 <? diff) && ((q_n Sm =? 0) || (maxValue (q_lay Sm) <? l)) then
        if negb (safeToRemove L p l) then PVal st
        else match removeQubit L l with
             | None => PThrow
             | Some (L', _) => PVal (decBoth l L', Sm, diff - 1)
             end
      else match qkey l (q_lay Sm) with
           | None => if ndebug then PUndefined else PAbort
           | Some pS =>
               if negb (isIdle Sm pS) then PVal st
               else if negb (safeToRemove L p l) then PVal st
               else if negb (safeToRemove Sm pS l) then PVal st
               else match removeQubit L l, removeQubit Sm l with
                    | Some (L', _), Some (S', _) => PVal (decBoth l L', decBoth l S', diff)
                    | _, _ => PThrow
                    end
           end
  end.
Definition strip_loop (ndebug : bool) (ps : list nat) (st : circ * circ * nat) : pres (circ * circ * nat) :=
  fold_left (fun m p => pbind m (fun st => strip_step ndebug st p)) ps (PVal st).
(** src/EquivalenceCheckingManager.cpp:48-182: the result as (larger, smaller) *)
Definition strip (ndebug : bool) (L Sm : circ) : pres (circ * circ) :=
  pbind (strip_loop ndebug (rev (map fst (q_lay L))) (L, Sm, q_n L - q_n Sm)) (fun st => PVal (fst st)).

(** QuantumComputation::setLogicalQubitGarbage (recalled): also removes the first output with that value *)
Definition setGarbage (l : nat) (c : circ) : circ :=
  mkCirc (q_ops c) (q_n c) (q_lay c) (match qkey l (q_out c) with Some p => qerase p (q_out c) | None => q_out c end) (q_anc c)
    (fun i => if i =? l then true else q_gar c i).
(** QuantumComputation::addAncillaryQubit (recalled); [None]: the physical qubit is already in use, an exception *)
Definition addAncillaryQubit (p : nat) (o : option nat) (c : circ) : option circ :=
  match qfind p (q_lay c), qfind p (q_out c) with
  | None, None => Some (mkCirc (q_ops c) (S (q_n c)) (qinsert p (q_n c) (q_lay c))
                         (match o with Some v => qinsert p v (q_out c) | None => q_out c end)
                         (fun i => if i =? q_n c then true else q_anc c i)
                         (fun i => if i =? q_n c then match o with Some _ => false | None => true end else q_gar c i))
  | _, _ => None
  end.
(** QuantumComputation::addAncillaryRegister (recalled): logical qubits n .. n+k-1 on the physical qubits with the same indices,
    if these are not taken *)
Definition addAncillaryRegister (k : nat) (c : circ) : circ :=
  fold_left (fun c j => mkCirc (q_ops c) (S (q_n c)) (qinsert j j (q_lay c)) (qinsert j j (q_out c))
                          (fun i => if i =? j then true else q_anc c i) (fun i => if i =? j then false else q_gar c i))
    (seq (q_n c) k) c.

(** src/EquivalenceCheckingManager.cpp:199-204: remove the [k] top logical qubits; returns the removed ones, the last removed first, each with
    its recorded garbage flag *)
Fixpoint removeTop (k : nat) (L : circ) (acc : list (nat * option nat * bool)) : option (circ * list (nat * option nat * bool)) :=
  match k with
  | O => Some (L, acc)
  | S k' => let l := maxValue (q_lay L) in
            match removeQubit L l with
            | None => None
            | Some (L', (p, o)) => removeTop k' L' ((p, o, q_gar L l) :: acc)
            end
  end.
(** lines 211-221, for the removed qubits in reverse order *)
Fixpoint addBack (rs : list (nat * option nat * bool)) (L Sm : circ) : option (circ * circ) :=
  match rs with
  | [] => Some (L, Sm)
  | (p, o, g) :: rs' =>
      match addAncillaryQubit p o L with
      | None => None
      | Some L1 => let L2 := if g then setGarbage (q_n L1 - 1) L1 else L1 in addBack rs' L2 (setGarbage (q_n L2 - 1) Sm)
      end
  end.
(** src/EquivalenceCheckingManager.cpp:184-222, as (larger, smaller). The flag recorded for a removed qubit is read back at the same
    index (garbage[getNqubits() - 1]); here it travels with the removed qubit *)
Definition setupAncillariesAndGarbage (L Sm : circ) : pres (circ * circ) :=
  let diff := q_n L - q_n Sm in
  match removeTop diff L [] with
  | None => PThrow
  | Some (L', rs) => match addBack rs L' (addAncillaryRegister diff Sm) with
                     | None => PThrow
                     | Some LS => PVal LS
                     end
  end.

(** lines 49-50 and 185-188: which circuit is the larger one *)
Definition as_larger (f : circ -> circ -> pres (circ * circ)) (c1 c2 : circ) : pres (circ * circ) :=
  if q_n c2 <? q_n c1 then f c1 c2 else pbind (f c2 c1) (fun r => PVal (snd r, fst r)).
(** src/EquivalenceCheckingManager.cpp:371-376 *)
Definition prepare (ndebug : bool) (c1 c2 : circ) : pres (circ * circ) :=
  pbind (as_larger (strip ndebug) c1 c2) (fun r => as_larger setupAncillariesAndGarbage (fst r) (snd r)).

(** src/checker/dd/DDAlternatingChecker.cpp:135-163 *)
Definition canHandle (c1 c2 : circ) : bool :=
  forallb (fun q => if q_anc c1 q && q_anc c2 q then
                      match qkey q (q_lay c1), qkey q (q_lay c2) with
                      | Some p1, Some p2 => isIdle c1 p1 || isIdle c2 p2
                      | None, None => false
                      | _, _ => true
                      end
                    else true) (rev (seq 0 (q_n c1))).
(** src/EquivalenceCheckingManager.cpp:384-392: runAlternatingChecker and runConstructionChecker after the constructor *)
Definition fallback (runAlt runCon : bool) (c1 c2 : circ) : bool * bool :=
  if runAlt && negb (canHandle c1 c2) then (false, true) else (runAlt, runCon).
End Prep.
Arguments mkCirc {A}. Arguments q_ops {A}. Arguments q_n {A}. Arguments q_lay {A}. Arguments q_out {A}. Arguments q_anc {A}. Arguments q_gar {A}.
Arguments isIdle {A}. Arguments removeQubit {A}. Arguments decBoth {A}. Arguments safeToRemove {A}. Arguments strip_step {A}. Arguments strip_loop {A}.
Arguments strip {A}. Arguments setGarbage {A}. Arguments addAncillaryQubit {A}. Arguments addAncillaryRegister {A}. Arguments removeTop {A}.
Arguments addBack {A}. Arguments setupAncillariesAndGarbage {A}. Arguments as_larger {A}. Arguments prepare {A}. Arguments canHandle {A}. Arguments fallback {A}.
