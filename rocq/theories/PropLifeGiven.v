(** C85, end to end, for the circuits that the user gives: whatever is done with the manager that is constructed for them. Only statements; the
    proofs are in LifeGivenProofs.v. *)
From Coq Require Import BinNums NArith List Arith Lia.
From mathcomp Require Import all_ssreflect all_fingroup all_algebra.
From Verif Require Import Criterion Config SeqFlow SeqSpec SeqDemo VerdictSpec ParFlow ParSpec ParAgainSpec Perm PermSpec Prep PrepSpec Passes PassesSpec StateGen StateGenSpec StateGenProofs2 PropStateGen Stim StimSpec
  Schemes DDCheck DDSpec Qubits DDSem DDDemo DDFlow PrepSem Choice ZXDemo PropPrepSem StimSem PropStim Construct ConstructProofs ConstructDemo PropConstruct RelationProofs ZX ZXSem EndToEnd
  LifeSpec LifeSem LifeGivenSpec LifeGivenProofs.
Set Implicit Arguments.
Unset Strict Implicit.
Unset Printing Implicit Defensive.
Import GRing.Theory Num.Theory.
Local Open Scope ring_scope.

Section P.
Variable C : numClosedFieldType.
Local Notation gate := (gate C nat_eqType).
Local Notation op := (op nat gate).
Local Notation circ := (circ op).
Local Notation mat n := (mat C [finType of 'I_n.+1]).
Local Notation vec n := (vec C [finType of 'I_n.+1]).

(** circuits [c1], [c2] whose idle qubits have been removed and whose ancillaries and garbage have been completed ([prepare]); any sequence of
    changes of the settings (checkers, timeouts, threads, application schemes, tolerances, types of stimuli), resets and runs of
    decision-diagram checkers in any flow, each on any schedule: a definitive verdict is true of [c1] and [c2] *)
Theorem C85_given_circuits : forall nd n m (c1 c2 c1' c2' : circ),
  wf_circ c1 -> wf_circ c2 -> acts_inside c1 -> acts_inside c2 -> garbage_unread c1 -> garbage_unread c2 -> ancillaries_last c1 ->
  unitary_circuit (as_circuit n c1) -> unitary_circuit (as_circuit n c2) ->
  prepare (@on_qubits C) nd c1 c2 = PVal (c1', c2') -> maxn (q_n c1) (q_n c2) = n.+1 -> q_n c1' = m.+1 ->
  forall zero : nat, exists V1 V2 : mat n, [/\ realises (as_circuit n c1) V1, realises (as_circuit n c2) V2 &
  forall (MT : Type) (word : MT -> N * MT) unif (clifford : stab -> vec m), clifford_states clifford ->
  forall (used : list (LifeSpec.settings stimulus (gen MT))) (ma : manager stimulus (gen MT)), life used ma ->
  (forall x, List.In x used -> checks_prepared zero c1' c2' word unif clifford x) ->
  definitive (r_eq (lf_res ma)) -> true_verdict (common_ancillaries n c1 c2) V1 V2 (r_eq (lf_res ma))].
Proof. exact: (@life_given C). Qed.

(** from the constructor on (optimisation passes, preparation, fallback), with all four checkers *)
Theorem C85_from_the_constructor : forall (apply : pass -> circ -> circ) isEmpty isDynamic varfree nd cfg n m (c1 c2 c1' c2' : circ) (s : Passes.settings),
  good_circuit n c1 -> good_circuit n c2 -> ancillaries_agree c1 c2 -> isDynamic c1 = false -> isDynamic c2 = false ->
  (forall p, List.In p (schedule (opts cfg) false) -> keeps_meaning n (apply p)) ->
  construct (@on_qubits C) apply isEmpty isDynamic varfree nd cfg c1 c2 = PVal (c1', c2', s) -> maxn (q_n c1) (q_n c2) = n.+1 -> q_n c1' = m.+1 ->
  forall zero : nat, exists V1 V2 : mat n, [/\ realises (as_circuit n c1) V1, realises (as_circuit n c2) V2 &
  forall (MT : Type) (word : MT -> N * MT) unif (clifford : stab -> vec m), clifford_states clifford ->
  forall (used : list (LifeSpec.settings stimulus (gen MT))) (ma : manager stimulus (gen MT)), life used ma ->
  (forall x, List.In x used -> checks_constructed zero c1' c2' word unif clifford x) -> zx_fine m c1' c2' used ->
  definitive (r_eq (lf_res ma)) -> true_verdict (common_ancillaries n c1 c2) V1 V2 (r_eq (lf_res ma))].
Proof. exact: (@life_constructed C). Qed.

(** ** the hypotheses can be met *)
Local Notation c1 := (idq [:: Had C 0; Had C 1; Had C 1] 3).
Local Notation c2 := (idq [:: Had C 0] 1).
Local Notation cfg := construct_cfg.
Local Notation nothing := (fun (_ : pass) (c : circ) => c).
Local Notation no := (fun _ : circ => false).
Local Notation yes := (fun _ : circ => true).
(** the circuits of C68's example (after the constructor two qubits are left, one ancillary), simulations with stimuli from the generator and the
    alternating checker *)
Example C85_given_example : exists c1' c2' s,
  construct (@on_qubits C) nothing no no yes true cfg c1 c2 = PVal (c1', c2', s) /\ q_n c1' = 2%N /\
  exists (cl : stab -> vec 1) (used : list (LifeSpec.settings stimulus (gen N))) (ma : manager stimulus (gen N)),
    [/\ clifford_states cl, life used ma, (forall x, List.In x used -> checks_constructed 0%N c1' c2' cword cunif cl x) /\ used <> nil, zx_fine 1 c1' c2' used &
        definitive (r_eq (lf_res ma))].
Proof.
have [[G1 G2 N1 N2] [KM [EX [EN [d1 [d2 [s [[EC En _ _] H]]]]]]]] := C68_hypotheses_met C.
exists d1, d2, s; split; [exact: EC|split; [exact: En|]].
have [hq [gs [cl [e [hc St D X Y]]]]] := H.
have AG : ancillaries_agree c1 c2 by have [[X0 _ _ _] _] := C68_no_ancillaries G1 G2 N1 N2 (erefl : no c1 = false) (erefl : no c2 = false) KM EC; exact: X0.
exists cl; have [used [ma [lu ab zf dv]]] := life_met (fun _ ma => Returned ma) G1 G2 AG (erefl : no c1 = false) (erefl : no c2 = false) KM EX EC EN En hq gs hc St D X Y (erefl : runZXChecker (exec (constructed cfg s)) = false).
by exists used, ma; split; [exact: hc|exact: lu|exact: ab|exact: zf|exact: dv].
Qed.
End P.
Print Assumptions C85_given_circuits.
Print Assumptions C85_from_the_constructor.
