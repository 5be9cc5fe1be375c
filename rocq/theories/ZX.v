(** Model of src/checker/zx/ZXChecker.cpp and include/checker/zx/ZXChecker.hpp: the constructor's permutation look-ups, the
    simplification strategy with its polling of the done flag, and the verdict. No proofs in this file.

    ZX-diagrams and the rewrite rules themselves are mqt-core's (its source is not in /repo): the strategy is modelled over an
    abstract diagram type with abstract rules, the verdict over what run() reads of the reduced diagram. ZXSem.v gives diagrams a
    concrete form and a meaning. *)
From Coq Require Import List Bool Arith.
From Verif Require Import Criterion Perm.
Import ListNotations.

(** ** constructor, ZXChecker.cpp:26-53 *)
(** the look-ups at lines 44-50 for the ancillary qubits of circuit 1, i.e. logical qubits [without .. n1 - 1]; both permutations
    must contain them (std::map::at would throw inside a noexcept function) *)
Definition ctor_lookups_ok (p1 p2 : qmap) (without n1 : nat) : bool :=
  forallb (fun a => match qfind a p1, qfind a p2 with Some _, Some _ => true | _, _ => false end) (seq without (n1 - without)).
(** lines 34-36 *)
Definition ancilla_flag (nanc1 nanc2 : nat) : bool := negb (nanc1 =? 0) || negb (nanc2 =? 0).

(** ** verdict, ZXChecker.cpp:55-115 *)
Inductive etype := ESimple | EHadamard.
(** what run() reads of the reduced miter: number of edges, number of inputs, for the i-th input the type of its first incident edge
    and the qubits recorded for the input vertex and for the vertex at the other end, and whether the global phase is zero *)
Record miter := mkMiter {
  z_nedges : nat; z_nqubits : nat;
  z_wire : nat -> etype * option nat * option nat;
  z_phase0 : bool }.

Inductive zres := ZVerdict (c : criterion) | ZThrow | ZAbort | ZUndefined.
Inductive wires := WOk (b : bool) | WThrow | WAbort | WUndefined.

(** the loop at lines 66-90; [g1], [g2]: logicalQubitIsGarbage. VData without a value: assert fails, or with asserts compiled out an
    empty optional is dereferenced *)
Fixpoint check_wires (ndebug : bool) (g1 g2 : nat -> bool) (p1 p2 : qmap) (M : miter) (is : list nat) : wires :=
  match is with
  | [] => WOk true
  | i :: r =>
      if g1 i && g2 i then check_wires ndebug g1 g2 p1 p2 M r
      else match z_wire M i with
           | (EHadamard, _, _) => WOk false
           | (ESimple, Some q1, Some q2) =>
               match qfind q1 p1, qfind q2 p2 with
               | Some l1, Some l2 => if l1 =? l2 then check_wires ndebug g1 g2 p1 p2 M r else WOk false
               | _, _ => WThrow
               end
           | (ESimple, _, _) => if ndebug then WUndefined else WAbort
           end
  end.

(** lines 60-115; [done] is the final read of the done flag *)
Definition zx_run (ndebug anc done : bool) (g1 g2 : nat -> bool) (out1 lay1 : qmap) (n1 : nat) (out2 lay2 : qmap) (n2 : nat) (M : miter) : zres :=
  let verdict (equivalent : bool) :=
    if (negb equivalent && anc) || done then NoInformation
    else if equivalent then (if z_phase0 M then Equivalent else EquivalentUpToGlobalPhase)
    else ProbablyNotEquivalent in
  if z_nedges M =? z_nqubits M then
    match invertPermutations out1 lay1 n1, invertPermutations out2 lay2 n2 with
    | Some r1, Some r2 =>
        match check_wires ndebug g1 g2 (invert r1) (invert r2) M (seq 0 (z_nqubits M)) with
        | WOk b => ZVerdict (verdict b)
        | WThrow => ZThrow
        | WAbort => ZAbort
        | WUndefined => ZUndefined
        end
    | _, _ => ZUndefined
    end
  else ZVerdict (verdict false).

(** ** simplification strategy *)
Section Reduce.
Variable D : Type.      (* zx::ZXDiagram *)

(** a family of rewrites: an iteration over its candidates (vertices or edges; the iterator moves over the current diagram), the check
    and the rule. Checks of the edge families include that neither end is deleted (ZXChecker.hpp:95-96), that of the gadget family
    that the vertex is not deleted (ZXChecker.cpp:212-214); [f_polls]: the for-loop reads the done flag before each check *)
Record family := mkFamily {
  f_item : Type;
  f_next : D -> option f_item -> option f_item;
  f_check : D -> f_item -> bool;
  f_apply : D -> f_item -> D;
  f_polls : bool }.

(** ZXChecker.hpp:49-67 and ZXChecker.cpp:211-218 *)
Record rules := mkRules {
  r_id : family; r_spider : family; r_localComp : family; r_pivotPauli : family; r_pivot : family; r_pivotGadget : family; r_gadget : family;
  r_toGraphlike : D -> D; r_removeDisconnected : D -> D; r_approximate : D -> D }.

(** the k-th read of the done flag *)
Variable done : nat -> bool.

(** an action returns whether it simplified, the diagram and the number of reads so far; [None]: the fuel did not suffice *)
Definition act := D -> nat -> option (bool * D * nat).

(** one for-loop over the candidates, ZXChecker.hpp:73-80 and 93-101, ZXChecker.cpp:210-218 *)
Fixpoint forLoop (F : family) (fuel : nat) (it : option (f_item F)) (more : bool) (d : D) (k : nat) : option (bool * D * nat) :=
  match fuel with
  | O => None
  | S fuel' =>
      match f_next F d it with
      | None => Some (more, d, k)
      | Some i =>
          let stop := f_polls F && done k in
          let k' := if f_polls F then S k else k in
          if stop || negb (f_check F d i) then forLoop F fuel' (Some i) more d k'
          else forLoop F fuel' (Some i) true (f_apply F d i) k'
      end
  end.

(** while (!isDone()) { more = body(); if (!more) break; simplified = true; } return simplified; *)
Fixpoint whileLoop (fuel : nat) (body : act) (simplified : bool) (d : D) (k : nat) : option (bool * D * nat) :=
  match fuel with
  | O => None
  | S fuel' =>
      if done k then Some (simplified, d, S k)
      else match body d (S k) with
           | None => None
           | Some (more, d', k') => if more then whileLoop fuel' body true d' k' else Some (simplified, d', k')
           end
  end.

(** more |= b() *)
Definition orElse (a b : act) : act := fun d k =>
  match a d k with
  | None => None
  | Some (m1, d1, k1) => match b d1 k1 with None => None | Some (m2, d2, k2) => Some (m1 || m2, d2, k2) end
  end.

Variable R : rules.
Variable fuel : nat.

(** ZXChecker.hpp:69-108, ZXChecker.cpp:207-225 *)
Definition simplify (F : family) : act := whileLoop fuel (forLoop F fuel None false) false.

(** ZXChecker.cpp:227-240 *)
Definition interiorCliffordSimp : act := fun d k =>
  match simplify (r_spider R) d k with
  | None => None
  | Some (s, d1, k1) =>
      whileLoop fuel (orElse (orElse (orElse (simplify (r_id R)) (simplify (r_spider R))) (simplify (r_pivotPauli R))) (simplify (r_localComp R))) s d1 k1
  end.
(** ZXChecker.cpp:242-253 *)
Definition cliffordSimp : act := whileLoop fuel (orElse interiorCliffordSimp (simplify (r_pivot R))) false.

(** ZXChecker.cpp:186-205 *)
Definition fullReduce : act := fun d k =>
  let d0 := if done k then d else r_toGraphlike R d in
  match interiorCliffordSimp d0 (S k) with
  | None => None
  | Some (s, d1, k1) =>
      match whileLoop fuel (orElse (orElse (orElse cliffordSimp (simplify (r_gadget R))) interiorCliffordSimp) (simplify (r_pivotGadget R))) s d1 k1 with
      | None => None
      | Some (s2, d2, k2) => Some (s2, if done k2 then d2 else r_removeDisconnected R d2, S k2)
      end
  end.

(** ZXChecker.cpp:174-184 *)
Definition fullReduceApproximate : act := fun d k =>
  match fullReduce d k with
  | None => None
  | Some (s, d1, k1) => whileLoop fuel (fun d k => fullReduce (r_approximate R d) k) s d1 k1
  end.
End Reduce.
