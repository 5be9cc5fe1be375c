(** The decision-diagram checkers inside the manager's flows: which environments (SeqFlow.v) belong to a pair of circuits.
    Definitions only. *)
From Coq Require Import BinNums.
From mathcomp Require Import all_ssreflect all_fingroup all_algebra.
From Verif Require Import Criterion Config SeqFlow SeqSpec Schemes DDCheck DDSpec Qubits DDSem.
Set Implicit Arguments.
Unset Strict Implicit.
Unset Printing Implicit Defensive.
Import GRing.Theory Num.Theory.
Local Open Scope ring_scope.

Section Flow.
Variables (C : numClosedFieldType) (Lg : finType) (Ph : eqType).
Local Notation mat := (mat C Lg).
Local Notation vec := (vec C Lg).
Local Notation gate := (gate C Ph).
Local Notation op := (op Ph gate).
Local Notation circuit := (circuit Ph Lg gate).

(** the parts of the DD package the final comparisons and the schemes use *)
Record package := Package {
  q_close : mat -> bool; q_weight : mat -> C;                                 (* isCloseToIdentity, root weight *)
  q_nodeM : mat -> mat -> bool; q_weightM : mat -> mat -> bool;               (* equality of nodes and of weights, matrices *)
  q_nodeV : vec -> vec -> bool; q_weightV : vec -> vec -> bool;               (* ... vectors *)
  q_equals : gate -> gate -> bool;                                            (* Operation::equals *)
  q_view : op -> opview; q_size : mat -> N }.
(** exact arithmetic, canonical decision diagrams *)
Definition exact_package (q : package) : Prop :=
  [/\ closeness_test (q_close q), weight_of (q_weight q),
      @same_node_test C [lmodType C of mat] (q_nodeM q) & @same_weight_test C [lmodType C of mat] (q_nodeM q) (q_weightM q)].

(** application schemes of the three checkers *)
Record schemes := Schemes { s_alt : appscheme; s_con : appscheme; s_sim : appscheme }.
Definition good_schemes (q : package) (c1 c2 : circuit) (s : schemes) : Prop :=
  [/\ scheme_for c1 c2 (s_alt s), scheme_for c1 c2 (s_con s) & scheme_for c1 c2 (s_sim s)] /\
  [/\ alt_conditions (q_equals q) c1 c2 (s_alt s), is_lookahead (s_con s) = false & is_lookahead (s_sim s) = false].

(** the environment [e] of the flow gives the verdicts of uninterrupted runs of the checkers on [c1], [c2];
    [A1], [A2]: ancillaries of the circuits, [eps]: fidelity threshold, [stim]: state vectors of the stimuli. The alternating checker
    starts from the projector on the common ancillaries (DDAlternatingChecker.cpp:21-50) and refuses what canHandle rejects
    (DDAlternatingChecker.cpp:27-35), the construction checker reduces each circuit's own ones (DDConstructionChecker.hpp:40-47) *)
Definition describes (q : package) (s : schemes) (zero : Ph) (c1 c2 : circuit) (A1 A2 : {set Lg}) (eps : C)
    (Stim Gen : Type) (stim : Stim -> vec) (e : env Stim Gen) : Prop :=
  [/\ e_canHandle e = can_handle c1 c2 A1 A2,
      exists y, alt_run (q_equals q) (q_view q) zero (q_size q) (s_alt s) never c1 c2 (A1 :&: A2) (alt_check (q_close q) (q_weight q)) NoInformation
                = RVerdict _ _ _ _ _ (mcrit (e_alt e)) y,
      exists y, con_run (q_equals q) (q_view q) zero (s_con s) never c1 c2 A1 A2 (con_check (q_close q) (q_nodeM q) (q_weightM q)) NoInformation
                = RVerdict _ _ _ _ _ (mcrit (e_con e)) y &
      forall t, exists y, sim_run (q_equals q) (q_view q) zero (s_sim s) never c1 c2 (stim t) (sim_check (q_nodeV q) (q_weightV q) eps) NoInformation
                = RVerdict _ _ _ _ _ (scrit (e_sim e t)) y].
(** what the checkers rely on, depending on which are configured: the common ancillaries that canHandle accepts are indeed left alone by one
    of the circuits (it does not look at output permutations); the construction checker's circuits have the same ancillaries *)
Definition ancillaries_fit (c : config) (c1 c2 : circuit) (A1 A2 : {set Lg}) : Prop :=
  (runAlternatingChecker (exec c) = true -> can_handle c1 c2 A1 A2 -> ancillaries_handled c1 c2 (A1 :&: A2)) /\
  (runConstructionChecker (exec c) = true -> A1 = A2).
(** a unit vector with zeros on the ancillaries *)
Definition fits (A : {set Lg}) (phi : vec) : Prop := inner phi phi = 1 /\ proj0 C A *m phi = phi.
(** the stimuli the generator may deliver from state [g] on are such vectors *)
Definition stimuli_fit (A : {set Lg}) (Stim Gen : Type) (stim : Stim -> vec) (e : env Stim Gen) (g : Gen) : Prop :=
  forall t, drawn_from e g t -> fits A (stim t).

(** what the verdicts say about two operators *)
Definition true_verdict (A : {set Lg}) (V1 V2 : mat) (q : criterion) : Prop :=
  match q with
  | Equivalent => V1 *m proj0 C A = V2 *m proj0 C A
  | EquivalentUpToGlobalPhase => exists w, [/\ `|w| = 1, w != 1 & agree_up_to A w V1 V2]
  | NotEquivalent => forall w, ~ agree_up_to A w V1 V2
  | EquivalentUpToPhase => False
  | _ => True
  end.
(** the notions the refusals of the alternating checker are stated with *)
Local Notation keys := (c_keys Ph Lg gate).
Local Notation layout := (c_layout Ph Lg gate).
Local Notation ops := (c_ops Ph Lg gate).
Local Notation output := (c_output Ph Lg gate).
(** a physical qubit of circuit [c] carries logical qubit [v] and some operation acts on it *)
Definition acted_upon (c : circuit) (v : Lg) : Prop :=
  exists i, [/\ i \in keys c, layout c i = v & exists2 o, List.In o (ops c) & i \in op_qubits o].
(** no physical qubit of circuit [c] carries logical qubit [v] *)
Definition absent (c : circuit) (v : Lg) : Prop := forall i, i \in keys c -> layout c i <> v.
(** outputs of the ancillaries: each is its own output or has no output at all *)
Definition plain_outputs (c : circuit) (A : {set Lg}) : Prop :=
  forall v i, v \in A -> i \in keys c -> layout c i = v ->
    (i, v) \in output c \/ (i \notin map fst (output c) /\ v \notin map snd (output c)).
End Flow.
