(** Proofs for C88: from the circuits as given to the verdict of a run that simulates all basis states. *)
From Coq Require Import BinNums NArith Arith List Lia.
From mathcomp Require Import all_ssreflect all_fingroup all_algebra.
From Verif Require Import Criterion Config SeqFlow SeqSpec ParFlow ParSpec VerdictSpec StateGen StateGenSpec Perm PermSpec Prep PrepSpec Passes PassesSpec Construct Schemes DDCheck DDSpec Qubits QubitsProofs DDSem
  DDSemProofs2 DDMain DDFlow DDFlowProofs PrepSem PrepSemProofs PrepSemProofs2 PrepSemProofs3 PropPrep Stim StimSpec StimProofs StimSem StimSemProofs StimDemoProofs PropStim ConstructProofs ConstructProofs2 PropPrepSem
  LiftProofs ExhaustSpec ExhaustProofs ExhaustSem ExhaustSemProofs.
Set Implicit Arguments.
Unset Strict Implicit.
Unset Printing Implicit Defensive.
Import GRing.Theory Num.Theory.
Local Open Scope ring_scope.

Section L.
Variable C : numClosedFieldType.
(** an operator that is classical on more qubits is so on fewer *)
Lemma lift_classical n m (F : 'I_m -> 'I_n) (V : mat C [finType of 'I_m]) : injective F -> classical (@lift C [finType of 'I_n] [finType of 'I_m] F V) -> classical V.
Proof.
move=> Fi [f H].
pose ext (b : basis [finType of 'I_m]) : basis [finType of 'I_n] := [ffun q => if [pick i | F i == q] is Some i then b i else false].
have extF b i : ext b (F i) = b i.
  by rewrite ffunE; case: pickP => [j /eqP /Fi -> //|/(_ i)]; rewrite eqxx.
have extO b q : q \notin codom F -> ext b q = false.
  by move=> N; rewrite ffunE; case: pickP => // j /eqP E; rewrite -E codom_f in N.
have E0 x y : entry (@lift C [finType of 'I_n] [finType of 'I_m] F V) x y =
    if [forall q, (q \notin codom F) ==> (x q == y q)] then entry V [ffun q => x (F q)] [ffun q => y (F q)] else 0 by rewrite entry_mx.
have R b : [ffun q => ext b (F q)] = b by apply/ffunP => i; rewrite ffunE extF.
have out b q : q \notin codom F -> f (ext b) q = false.
  have := H (f (ext b)) (ext b); rewrite eqxx E0; case: forallP => [X _ N|_ /eqP]; last by rewrite eq_sym oner_eq0.
  by have := X q; rewrite N /= => /eqP ->; exact: extO.
exists (fun b => [ffun i => f (ext b) (F i)]) => a b.
have := H (ext a) (ext b); rewrite E0 !R; case: forallP => [_ ->|[]]; last first.
  by move=> q; apply/implyP => N; rewrite !extO.
congr (nat_of_bool _)%:R; apply/eqP/eqP => [E|->]; first by apply/ffunP => i; rewrite ffunE -E extF.
apply/ffunP => q; case: (boolP (q \in codom F)) => [/codomP [i ->]|N]; first by rewrite extF ffunE.
by rewrite extO // out.
Qed.

(** ** phases, lifted *)
Section Lift.
Variables (n m : nat) (F : 'I_m -> 'I_n).
Hypothesis Fi : injective F.
Local Notation lift := (@lift C [finType of 'I_n] [finType of 'I_m] F).
Let ext (b : basis [finType of 'I_m]) : basis [finType of 'I_n] := glue F [ffun => false] b.
Local Notation pull x := [ffun i => x (F i)].
Lemma entry_ext V a b : entry (lift V) (ext a) (ext b) = entry V a b.
Proof.
rewrite entry_lift !pull_glue //; case: offP => // -[] q nq; by rewrite !glue_out.
Qed.
Lemma ext_inj : injective ext.
Proof. by move=> a b E; rewrite -(pull_glue Fi [ffun => false] a) -(pull_glue Fi [ffun => false] b) -/(ext a) E. Qed.
Lemma lift_monomial V : monomial (lift V) -> monomial V.
Proof.
move=> [f H]; exists (fun b => [ffun i => f (ext b) (F i)]) => a b N; rewrite -entry_ext; apply: H.
by apply: contraNneq N => E; rewrite -E; apply/eqP; rewrite (pull_glue Fi).
Qed.
Lemma mul_diagonal k (M D : mat C [finType of 'I_k]) x y : diagonal D -> entry (M *m D) x y = entry M x y * entry D y y.
Proof. by move=> dD; rewrite entry_mul (bigD1 y) //= big1 ?addr0 // => z N; rewrite dD // mulr0. Qed.
Lemma lift_phases (A : {set 'I_n}) (V1 V2 : mat C [finType of 'I_m]) :
  (exists D, diagonal D /\ lift V1 *m proj0 C A = lift V2 *m D *m proj0 C A) <->
  (exists D, diagonal D /\ V1 *m proj0 C (F @^-1: A) = V2 *m D *m proj0 C (F @^-1: A)).
Proof.
split=> -[D [dD H]].
- pose D' : mat C [finType of 'I_m] := mx (fun x y => entry D (ext x) (ext y)).
  have dD' : diagonal D' by move=> x y N; rewrite entry_mx dD //; apply: contraNneq N => /ext_inj ->.
  exists D'; split=> //; apply: mxP => a b; rewrite !entry_projR; case: forallP => Z; rewrite ?mulr0 // !mulr1.
  have := congr1 (fun M => entry M (ext a) (ext b)) H; rewrite /= !entry_projR.
  have -> : [forall q in A, ~~ ext b q].
    apply/forallP => q; apply/implyP => qA; case: (boolP (q \in codom F)) => [/codomP [i Ei]|nq].
    + by have := Z i; rewrite inE -Ei qA /ext Ei (glue_in Fi).
    + by rewrite /ext glue_out // ffunE.
  by rewrite !mulr1 !mul_diagonal // !entry_ext entry_mx.
- exists (lift D); split.
    move=> x y N; rewrite entry_lift; case: ifP => // o; apply: dD; by move: N; rewrite (pull_eq Fi) o.
  have := (lift_agree Fi A 1 V1 (V2 *m D)).2; rewrite /agree_up_to !scale1r lift_mul //; exact.
Qed.
End Lift.

Local Notation gate := (gate C nat_eqType).
Local Notation op := (op nat gate).
Local Notation circ := (circ op).
Local Notation mat n := (mat C [finType of 'I_n.+1]).
Local Notation vec n := (vec C [finType of 'I_n.+1]).

Theorem given_classical : forall (apply : pass -> circ -> circ) isEmpty isDynamic varfree nd cfg n m (c1 c2 c1' c2' : circ) (s : settings),
  good_circuit n c1 -> good_circuit n c2 -> ancillaries_agree c1 c2 -> isDynamic c1 = false -> isDynamic c2 = false ->
  (forall p, List.In p (schedule (opts cfg) false) -> keeps_meaning n (apply p)) ->
  only_simulations cfg -> stateTyp (sim cfg) = ComputationalBasis -> N.le (2 ^ N.of_nat (primary c1'))%num (maxSims (sim cfg)) ->
  construct (@on_qubits C) apply isEmpty isDynamic varfree nd cfg c1 c2 = PVal (c1', c2', s) -> maxn (q_n c1) (q_n c2) = n.+1 -> q_n c1' = m.+1 ->
  let p1 := as_circuit m c1' in let p2 := as_circuit m c2' in let A := common_ancillaries n c1 c2 in let c := constructed cfg s in
  forall zero : nat, exists V1 V2 : mat n, [/\ realises (as_circuit n c1) V1, realises (as_circuit n c2) V2 &
  forall (q : package C [finType of 'I_m.+1] nat_eqType) (sch : schemes) (A1 A2 : {set 'I_m.+1}) (eps : C), @same_node_test C [lmodType C of vec m] (q_nodeV q) ->
    good_schemes q p1 p2 sch -> 0 < eps -> eps <= 1 -> classical V1 -> classical V2 ->
  forall (MT : Type) (word : MT -> N * MT) unif (e : env stimulus (gen MT)) (clifford : stab -> vec m), fair unif -> in_range unif ->
    stimuli_of word unif c1' c2' ComputationalBasis e -> describes q sch zero p1 p2 A1 A2 eps (ket clifford) e -> checkers_constructible e c ->
    (forall fuel pf ma, plain_sequential_run fuel e c ma -> g_used (m_gen ma) = nil -> exists ma', SeqFlow.run fuel pf e ma = Returned ma' /\
      [/\ r_eq (m_res ma') = ProbablyEquivalent <-> V1 *m proj0 C A = V2 *m proj0 C A & r_eq (m_res ma') = NotEquivalent <-> V1 *m proj0 C A <> V2 *m proj0 C A]) /\
    (forall g pp x, hasTimeout c = false -> g_used g = nil -> par_returned e c g pp x ->
      [/\ r_eq (p_res x) = ProbablyEquivalent <-> V1 *m proj0 C A = V2 *m proj0 C A & r_eq (p_res x) = NotEquivalent <-> V1 *m proj0 C A <> V2 *m proj0 C A])].
Proof.
move=> apply isEmpty isDynamic varfree nd cfg n m c1 c2 c1' c2' s G1 G2 AG d1 d2 KM OS ST MS EC En Em p1 p2 A c zero.
have [o1 [o2 [[[W1 a1 g1 P1 U1] [W2 a2 g2 P2 U2] L En'] EP EA [r1 r2] [e12 _ _ _]]]] := construct_facts G1 G2 AG d1 d2 KM EC En Em.
have [K63 OS' MS'] := @constructor_asks _ _ _ _ _ _ _ _ _ _ _ _ _ EC OS ST MS.
have [Em2 [F [[Wf1 Wf2] Fm R1 R2 ECA]]] := prep_sem W1 W2 a1 a2 g1 g2 EP En' Em.
have Fi : injective F by move=> a b e; apply: val_inj; case: (ltngtP a b) => //; rewrite -Fm e ltnn.
have [X1 [X2 [o [q1 [q2 _]]]]] := C40_prepare (@on_qubits C) nd o1 o2 W1 W2.
move: o; rewrite EP => -[? ?]; subst X1 X2.
have U1' : unitary_circuit p1 by move=> o; rewrite /p1 /= q1 => Ho; apply: (unitary_op_down Fi); exact: U1.
have U2' : unitary_circuit p2 by move=> o; rewrite /p2 /= q2 => Ho; apply: (unitary_op_down Fi); exact: U2.
have [V1 [V2 [[v1 v2 _ _] H]]] := sim_exact zero Wf1 Wf2 U1' U2'.
have EM : Nat.max (q_n c1') (q_n c2') = m.+1 by rewrite Em Em2 Nat.max_id.
pose Z := [set q : 'I_m.+1 | (primary c1' <= q)%N].
have EZ : own_ancillaries m c1' :&: own_ancillaries m c2' = Z.
  rewrite -e12 setIid; apply/setP => q; rewrite !inE.
  have X := C65_ancillaries_last_suffices W1 W2 EP L (q := q); rewrite Em in X.
  have lt : (q < m.+1)%coq_nat by apply/ltP.
  by apply/idP/idP => [/(proj1 (X lt)) /leP|/leP /(proj2 (X lt))].
have L1 : lift F V1 *m proj0 C A = lift F V2 *m proj0 C A <-> V1 *m proj0 C Z = V2 *m proj0 C Z.
  have LA : agree_up_to A 1 (lift F V1) (lift F V2) <-> agree_up_to Z 1 V1 V2 by rewrite /A -EA -EZ -(common_own Em Em2) ECA; exact: lift_agree.
  by move: LA; rewrite /agree_up_to !scale1r.
exists (lift F V1), (lift F V2); split; [by apply: r1; apply/R1; exists V1|by apply: r2; apply/R2; exists V2|].
move=> q sch A1 A2 eps hn hs e0 e1 /(lift_classical Fi) cl1 /(lift_classical Fi) cl2 MT word unif e cl FA IR st hd [kS _ _ _].
have HE l := H q sch A1 A2 eps hn hs e0 _ _ _ _ hd (SBits l) (ket_unit cl l).
have K := classical_iff cl EM e0 e1 cl1 cl2.
have fin r : (r = NotEquivalent /\ (exists l, refuting_input (Nat.max (q_n c1') (q_n c2')) (primary c1') e l)) \/
    (r = ProbablyEquivalent /\ forall l, ~ refuting_input (Nat.max (q_n c1') (q_n c2')) (primary c1') e l) ->
    [/\ r = ProbablyEquivalent <-> lift F V1 *m proj0 C A = lift F V2 *m proj0 C A & r = NotEquivalent <-> lift F V1 *m proj0 C A <> lift F V2 *m proj0 C A].
  rewrite L1 -K => -[[-> [l [B E]]]|[-> N]].
  - have NC : ~ close eps (V1 *m ket cl (SBits l)) (V2 *m ket cl (SBits l)) by move/HE; rewrite E.
    split; split; [by []|by move=> X; case: NC; exact: X|by move=> _ Y; case: NC; exact: Y|by []].
  - have NC : forall l, basis_input (Nat.max (q_n c1') (q_n c2')) (primary c1') l -> close eps (V1 *m ket cl (SBits l)) (V2 *m ket cl (SBits l)).
      by move=> l B; apply/HE => E; apply: (N l).
    by split; split.
split.
- move=> fuel pf ma [[Ec Ep cf nf gs] [lf nd0]] gu.
  have NX : no_exceptions e c by have [r [al [co zx]]] := OS'; split=> //; rewrite al co zx.
  have [|||||||ma' [Rm X]] := @exhaustive_run _ _ word unif FA IR c1' c2' e st fuel pf ma K63 gu; rewrite ?Ec //; first by rewrite -MS'.
  by exists ma'; split=> //; apply: fin; case: X => [|[? [_ ?]]]; [left|right].
- move=> g pp x to gu pr; apply: fin.
  by case: (@exhaustive_parallel _ _ word unif IR c1' c2' e st c g pp x K63 gu OS' MS' to pr) => [|[? [_ ?]]]; [left|right].
Qed.
(** the same for circuits with phase gates *)
Theorem given_phases : forall (apply : pass -> circ -> circ) isEmpty isDynamic varfree nd cfg n m (c1 c2 c1' c2' : circ) (s : settings),
  good_circuit n c1 -> good_circuit n c2 -> ancillaries_agree c1 c2 -> isDynamic c1 = false -> isDynamic c2 = false ->
  (forall p, List.In p (schedule (opts cfg) false) -> keeps_meaning n (apply p)) ->
  only_simulations cfg -> stateTyp (sim cfg) = ComputationalBasis -> N.le (2 ^ N.of_nat (primary c1'))%num (maxSims (sim cfg)) ->
  construct (@on_qubits C) apply isEmpty isDynamic varfree nd cfg c1 c2 = PVal (c1', c2', s) -> maxn (q_n c1) (q_n c2) = n.+1 -> q_n c1' = m.+1 ->
  let p1 := as_circuit m c1' in let p2 := as_circuit m c2' in let A := common_ancillaries n c1 c2 in let c := constructed cfg s in
  forall zero : nat, exists V1 V2 : mat n, [/\ realises (as_circuit n c1) V1, realises (as_circuit n c2) V2 &
  forall (q : package C [finType of 'I_m.+1] nat_eqType) (sch : schemes) (A1 A2 : {set 'I_m.+1}) (eps : C), @same_node_test C [lmodType C of vec m] (q_nodeV q) ->
    good_schemes q p1 p2 sch -> 0 < eps -> eps <= 1 -> monomial V1 -> monomial V2 ->
  forall (MT : Type) (word : MT -> N * MT) unif (e : env stimulus (gen MT)) (clifford : stab -> vec m), fair unif -> in_range unif ->
    stimuli_of word unif c1' c2' ComputationalBasis e -> describes q sch zero p1 p2 A1 A2 eps (ket clifford) e -> checkers_constructible e c ->
    let phases := exists D : mat n, diagonal D /\ V1 *m proj0 C A = V2 *m D *m proj0 C A in
    (forall fuel pf ma, plain_sequential_run fuel e c ma -> g_used (m_gen ma) = nil -> exists ma', SeqFlow.run fuel pf e ma = Returned ma' /\
      [/\ r_eq (m_res ma') = ProbablyEquivalent <-> phases & r_eq (m_res ma') = NotEquivalent <-> ~ phases]) /\
    (forall g pp x, hasTimeout c = false -> g_used g = nil -> par_returned e c g pp x ->
      [/\ r_eq (p_res x) = ProbablyEquivalent <-> phases & r_eq (p_res x) = NotEquivalent <-> ~ phases])].
Proof.
move=> apply isEmpty isDynamic varfree nd cfg n m c1 c2 c1' c2' s G1 G2 AG d1 d2 KM OS ST MS EC En Em p1 p2 A c zero.
have [o1 [o2 [[[W1 a1 g1 P1 U1] [W2 a2 g2 P2 U2] L En'] EP EA [r1 r2] [e12 _ _ _]]]] := construct_facts G1 G2 AG d1 d2 KM EC En Em.
have [K63 OS' MS'] := @constructor_asks _ _ _ _ _ _ _ _ _ _ _ _ _ EC OS ST MS.
have [Em2 [F [[Wf1 Wf2] Fm R1 R2 ECA]]] := prep_sem W1 W2 a1 a2 g1 g2 EP En' Em.
have Fi : injective F by move=> a b e; apply: val_inj; case: (ltngtP a b) => //; rewrite -Fm e ltnn.
have [X1 [X2 [o [q1 [q2 _]]]]] := C40_prepare (@on_qubits C) nd o1 o2 W1 W2.
move: o; rewrite EP => -[? ?]; subst X1 X2.
have U1' : unitary_circuit p1 by move=> o; rewrite /p1 /= q1 => Ho; apply: (unitary_op_down Fi); exact: U1.
have U2' : unitary_circuit p2 by move=> o; rewrite /p2 /= q2 => Ho; apply: (unitary_op_down Fi); exact: U2.
have [V1 [V2 [[v1 v2 uV1 uV2] H]]] := sim_exact zero Wf1 Wf2 U1' U2'.
have EM : Nat.max (q_n c1') (q_n c2') = m.+1 by rewrite Em Em2 Nat.max_id.
pose Z := [set q : 'I_m.+1 | (primary c1' <= q)%N].
have EZ : own_ancillaries m c1' :&: own_ancillaries m c2' = Z.
  rewrite -e12 setIid; apply/setP => q; rewrite !inE.
  have X := C65_ancillaries_last_suffices W1 W2 EP L (q := q); rewrite Em in X.
  have lt : (q < m.+1)%coq_nat by apply/ltP.
  by apply/idP/idP => [/(proj1 (X lt)) /leP|/leP /(proj2 (X lt))].
have L1 : (exists D : mat n, diagonal D /\ lift F V1 *m proj0 C A = lift F V2 *m D *m proj0 C A) <-> exists D : mat m, diagonal D /\ V1 *m proj0 C Z = V2 *m D *m proj0 C Z.
  by rewrite /A -EA -EZ -(common_own Em Em2) ECA; exact: (lift_phases Fi).
exists (lift F V1), (lift F V2); split; [by apply: r1; apply/R1; exists V1|by apply: r2; apply/R2; exists V2|].
move=> q sch A1 A2 eps hn hs e0 e1 /(lift_monomial Fi) cl1 /(lift_monomial Fi) cl2 MT word unif e cl FA IR st hd [kS _ _ _] phases.
have HE l := H q sch A1 A2 eps hn hs e0 _ _ _ _ hd (SBits l) (ket_unit cl l).
have K := mono_iff cl EM e0 e1 uV1 uV2 cl1 cl2.
have fin r : (r = NotEquivalent /\ (exists l, refuting_input (Nat.max (q_n c1') (q_n c2')) (primary c1') e l)) \/
    (r = ProbablyEquivalent /\ forall l, ~ refuting_input (Nat.max (q_n c1') (q_n c2')) (primary c1') e l) ->
    [/\ r = ProbablyEquivalent <-> phases & r = NotEquivalent <-> ~ phases].
  rewrite /phases L1 -K => -[[-> [l [B E]]]|[-> N]].
  - have NC : ~ close eps (V1 *m ket cl (SBits l)) (V2 *m ket cl (SBits l)) by move/HE; rewrite E.
    split; split; [by []|by move=> X; case: NC; exact: X|by move=> _ Y; case: NC; exact: Y|by []].
  - have NC : forall l, basis_input (Nat.max (q_n c1') (q_n c2')) (primary c1') l -> close eps (V1 *m ket cl (SBits l)) (V2 *m ket cl (SBits l)).
      by move=> l B; apply/HE => E; apply: (N l).
    by split; split.
split.
- move=> fuel pf ma [[Ec Ep cf nf gs] [lf nd0]] gu.
  have NX : no_exceptions e c by have [r [al [co zx]]] := OS'; split=> //; rewrite al co zx.
  have [|||||||ma' [Rm X]] := @exhaustive_run _ _ word unif FA IR c1' c2' e st fuel pf ma K63 gu; rewrite ?Ec //; first by rewrite -MS'.
  by exists ma'; split=> //; apply: fin; case: X => [|[? [_ ?]]]; [left|right].
- move=> g pp x to gu pr; apply: fin.
  by case: (@exhaustive_parallel _ _ word unif IR c1' c2' e st c g pp x K63 gu OS' MS' to pr) => [|[? [_ ?]]]; [left|right].
Qed.
End L.
