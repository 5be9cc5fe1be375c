(** C69: runs with configuration.functionality.checkPartialEquivalence. *)
From Coq Require Import BinNums NArith List Arith.
From mathcomp Require Import all_ssreflect all_fingroup all_algebra.
From Verif Require Import Criterion Config SeqFlow SeqSpec VerdictSpec ParFlow ParSpec Schemes DDCheck DDSpec Qubits QubitsProofs QubitsProofs2 DDSem DDSemProofs2 DDFlow DDFlowProofs
  DDDemo DDDemoProofs DDDemoProofs2 DDDemoProofs3 EndToEnd Choice ParDecide ParDecideDemo PartialEq PartialEqProofs PartialDemo PartialDemoProofs PartialFlow PartialFlowProofs PartialFlowProofs2
  PartialFlowDemo.
Set Implicit Arguments.
Unset Strict Implicit.
Unset Printing Implicit Defensive.
Import GRing.Theory Num.Theory.
Local Open Scope ring_scope.

Section P.
Variables (C : numClosedFieldType) (Lg : finType) (Ph : eqType).
Local Notation mat := (mat C Lg).
Local Notation vec := (vec C Lg).
Local Notation gate := (gate C Ph).
Local Notation circuit := (circuit Ph Lg gate).

(** With the alternating checker, an undisturbed sequential run decides partial equivalence with respect to the common garbage (if one circuit leaves the
    common ancillaries alone, and if simulations only run when both circuits have the same garbage). *)
Theorem C69_sequential_decides : forall (zero : Ph) (c1 c2 : circuit),
  wf_circuit c1 -> wf_circuit c2 -> unitary_circuit c1 -> unitary_circuit c2 ->
  exists V1 V2 : mat, [/\ realises c1 V1, realises c2 V2 &
  forall (q : package C Lg Ph) (isClose : mat -> bool) (s : schemes) (A1 A2 G1 G2 : {set Lg}) (eps : C),
  exact_package q -> partial_test (G1 :&: G2) isClose -> good_schemes q c1 c2 s -> 0 < eps ->
  forall (Stim Gen : Type) (stim : Stim -> vec) (e : env Stim Gen) fuel pf m, describes_partial q isClose s zero c1 c2 A1 A2 G1 G2 eps stim e ->
    checkPartialEquivalence (func (m_cfg m)) = true -> runAlternatingChecker (exec (m_cfg m)) = true -> one_leaves_alone c1 c2 (A1 :&: A2) ->
    (runSimulationChecker (exec (m_cfg m)) = true -> G1 = G2 /\ stimuli_fit (A1 :&: A2) stim e (m_gen m)) ->
    undisturbed fuel e m ->
    exists m', SeqFlow.run fuel pf e m = Returned m' /\ answers (partially_equivalent (A1 :&: A2) (G1 :&: G2) V1 V2) (r_eq (m_res m'))].
Proof.
move=> zero c1 c2 W1 W2 U1 U2; have [V1 [V2 [R1 R2 H]]] := partial_flows zero W1 W2 U1 U2.
exists V1, V2; split=> // q isClose s A1 A2 G1 G2 eps hq hp hs eps0 Stim Gen stim e fuel pf m hd _ ha hl hst [x1 [x2 [x3 [x4 [l [g [x5 [x6 [x7 x8]]]]]]]]].
have [S _ _] := H Stim Gen q isClose s A1 A2 G1 G2 eps hq hp hs eps0 stim e hd.
exact: (S fuel pf m l g ha hl hst x1 x2 x3 x4 x5 x6 x7 x8).
Qed.

(** ... and so does a parallel run under every schedule, if the construction checker is not run. *)
Theorem C69_parallel_decides : forall (zero : Ph) (c1 c2 : circuit),
  wf_circuit c1 -> wf_circuit c2 -> unitary_circuit c1 -> unitary_circuit c2 ->
  exists V1 V2 : mat, [/\ realises c1 V1, realises c2 V2 &
  forall (q : package C Lg Ph) (isClose : mat -> bool) (s : schemes) (A1 A2 G1 G2 : {set Lg}) (eps : C),
  exact_package q -> partial_test (G1 :&: G2) isClose -> good_schemes q c1 c2 s -> 0 < eps ->
  forall (Stim Gen : Type) (stim : Stim -> vec) (e : env Stim Gen), describes_partial q isClose s zero c1 c2 A1 A2 G1 G2 eps stim e ->
    forall c g pp x, checkPartialEquivalence (func c) = true -> runAlternatingChecker (exec c) = true -> runConstructionChecker (exec c) = false ->
    one_leaves_alone c1 c2 (A1 :&: A2) -> (runSimulationChecker (exec c) = true -> G1 = G2 /\ stimuli_fit (A1 :&: A2) stim e g) ->
    par_undisturbed e c g -> ~ zx_runs e c -> run_to_end e c g pp x ->
    p_main x = MReturned /\ answers (partially_equivalent (A1 :&: A2) (G1 :&: G2) V1 V2) (r_eq (p_res x))].
Proof.
move=> zero c1 c2 W1 W2 U1 U2; have [V1 [V2 [R1 R2 H]]] := partial_flows zero W1 W2 U1 U2.
exists V1, V2; split=> // q isClose s A1 A2 G1 G2 eps hq hp hs eps0 Stim Gen stim e hd c g pp x _.
by have [_ _ S] := H Stim Gen q isClose s A1 A2 G1 G2 eps hq hp hs eps0 stim e hd; exact: S.
Qed.

(** With the construction checker but not the alternating checker, and the same ancillaries and garbage: partially equivalent circuits are never
    rejected, and 'equivalent' means equal outcome probabilities for every computational basis state; without simulations, exactly that. *)
Theorem C69_construction_only : forall (zero : Ph) (c1 c2 : circuit),
  wf_circuit c1 -> wf_circuit c2 -> unitary_circuit c1 -> unitary_circuit c2 ->
  exists V1 V2 : mat, [/\ realises c1 V1, realises c2 V2 &
  forall (q : package C Lg Ph) (isClose : mat -> bool) (s : schemes) (A G : {set Lg}) (eps : C),
  exact_package q -> partial_test G isClose -> good_schemes q c1 c2 s -> 0 < eps ->
  forall (Stim Gen : Type) (stim : Stim -> vec) (e : env Stim Gen) fuel pf m, describes_partial q isClose s zero c1 c2 A A G G eps stim e ->
    checkPartialEquivalence (func (m_cfg m)) = true -> runAlternatingChecker (exec (m_cfg m)) = false -> runConstructionChecker (exec (m_cfg m)) = true ->
    (runSimulationChecker (exec (m_cfg m)) = true -> stimuli_fit A stim e (m_gen m)) ->
    undisturbed fuel e m ->
    exists m', SeqFlow.run fuel pf e m = Returned m' /\
      [/\ r_eq (m_res m') = Equivalent \/ r_eq (m_res m') = NotEquivalent, partially_equivalent A G V1 V2 -> r_eq (m_res m') = Equivalent,
          r_eq (m_res m') = Equivalent -> same_on_basis A G V1 V2 &
          runSimulationChecker (exec (m_cfg m)) = false -> r_eq (m_res m') = Equivalent <-> same_on_basis A G V1 V2]].
Proof.
move=> zero c1 c2 W1 W2 U1 U2; have [V1 [V2 [R1 R2 H]]] := partial_flows zero W1 W2 U1 U2.
exists V1, V2; split=> // q isClose s A G eps hq hp hs eps0 Stim Gen stim e fuel pf m hd _ ha hc hst [x1 [x2 [x3 [x4 [l [g [x5 [x6 [x7 x8]]]]]]]]].
have hp' : partial_test (G :&: G) isClose by rewrite setIid.
have [_ S _] := H Stim Gen q isClose s A A G G eps hq hp' hs eps0 stim e hd; rewrite !setIid in S.
exact: (S fuel pf m l g ha hc erefl erefl hst x1 x2 x3 x4 x5 x6 x7 x8).
Qed.
End P.
Print Assumptions C69_sequential_decides.
Print Assumptions C69_parallel_decides.
Print Assumptions C69_construction_only.

Section Demo.
Variable C : numClosedFieldType.
Local Notation Lg := bool_finType.
Local Notation gate := (gate C bool_eqType).
Local Notation circuit := (circuit bool_eqType Lg gate).
Local Notation pkg := (demo_package C Lg bool_eqType).
Let ds := Schemes SOneToOne SOneToOne SOneToOne.
Let zs : N -> vec C Lg := fun _ => \col_i ((i == enum_rank (basis0 Lg))%:R : C).
Let zs_unit t : fits set0 (zs t).
Proof.
split; last by rewrite proj0_0 mul1mx.
rewrite /inner mxE (bigD1 (enum_rank (basis0 Lg))) //= !mxE eqxx conjC_nat mulr1 big1 ?addr0 // => i /negbTE N.
by rewrite !mxE N mulr0.
Qed.
Let W1 : wf_circuit (Lg := Lg) (rot_circuit C). Proof. exact: qc2_wf. Qed.
Let W2 : wf_circuit (Lg := Lg) (zrot_circuit C). Proof. exact: qc2_wf. Qed.
Let U1 : unitary_circuit (Lg := Lg) (rot_circuit C). Proof. by apply: qc2_unitary => g [<-|[]]; exact: rgate_unitary. Qed.
Let U2 : unitary_circuit (Lg := Lg) (zrot_circuit C).
Proof. by apply: qc2_unitary => g [<-|[<-|[]]]; [exact: zgate_unitary|exact: rgate_unitary]. Qed.
Let d_good : good_schemes pkg (rot_circuit C) (zrot_circuit C) ds.
Proof. split; split=> //; split; [exact: demo_equals_exact|exact: qc2_placement]. Qed.

(** What the circuits of C59_construction_superpositions_refuted look like to the checkers: the alternating checker answers 'not equivalent', the construction checker
    'equivalent' *)
Let described : exists v, describes_partial pkg (@demo_partial C Lg [set false]) ds false (rot_circuit C) (zrot_circuit C) set0 set0 [set false] [set false] 1 zs
  (lost_env true MNotEquivalent MEquivalent v).
Proof.
have [ch [a [c [sm D]]]] := describes_partial_ex false W1 W2 U1 (@demo_partial C Lg [set false]) set0 set0 [set false] [set false] 1 zs (lost_env true MEquivalent MEquivalent SPhase) d_good.
have [V1 [V2 [R1 R2 H]]] := partial_checkers false W1 W2 U1 U2.
have hp : partial_test ([set false] :&: [set false]) (@demo_partial C Lg [set false]) by rewrite setIid; exact: demo_partial_test.
have [HA _ HC _] := H pkg _ ds set0 set0 [set false] [set false] 1 (demo_exact _ _ _) hp d_good (@ltr01 C) _ _ zs _ D.
rewrite !setIid (rot_V R1) (zrot_V R2) in HA HC.
have ea : a = MNotEquivalent by case: a HA {D HC} => //= HA; exfalso; exact: (rot_not_pe (HA _)).
have ec : c = MEquivalent by case: (HC erefl erefl) => [[]//|[_ n]]; case: n; exact: rot_same_on_basis.
have [hch ha hc hs] := D; rewrite /= in hch ha hc hs; exists (sm 0%num); subst a c.
have che : ch = true by rewrite hch; apply/forallP => x; rewrite !in_set0.
by subst ch; split=> //= t; exact: (hs 0%num).
Qed.

(** With both exact checkers in parallel, the answer depends on the schedule: the same undisturbed run may end with 'equivalent' and with 'not equivalent'. *)
Theorem C69_schedule_refuted : exists (c1 c2 : circuit) (A G : {set Lg}) (q : package C Lg bool_eqType) (isClose : mat C Lg -> bool) (s : schemes) (stim : N -> vec C Lg) (e : env N N),
  [/\ wf_circuit c1, wf_circuit c2, unitary_circuit c1 & unitary_circuit c2] /\
  [/\ exact_package q, partial_test G isClose, good_schemes q c1 c2 s, one_leaves_alone c1 c2 A & describes_partial q isClose s false c1 c2 A A G G 1 stim e] /\
  exists c g pp x y, [/\ checkPartialEquivalence (func c) = true, par_undisturbed e c g & ~ zx_runs e c] /\
    [/\ run_to_end e c g pp x, p_main x = MReturned & r_eq (p_res x) = NotEquivalent] /\
    [/\ run_to_end e c g pp y, p_main y = MReturned & r_eq (p_res y) = Equivalent].
Proof.
have [v D] := described.
exists (rot_circuit C), (zrot_circuit C), set0, [set false], pkg, (@demo_partial C Lg [set false]), ds, zs, (lost_env true MNotEquivalent MEquivalent v).
split; first by split; [exact: W1|exact: W2|exact: U1|exact: U2].
split; first by split; [exact: demo_exact|exact: demo_partial_test|exact: d_good|left=> q; rewrite in_set0|exact: D].
have [[x [Rx [Mx Ex]]] [y [Ry [My Ey]]]] := both_run v.
exists both_cfg, 0%num, (QArith_base.Qmake Z0 xH), x, y; split; first by split; [|exact: both_undisturbed|case].
by split; split=> //; split=> //; exact: returned_stuck.
Qed.

(** With garbage in one circuit only, the configured checker decides the answer: X on a qubit that is garbage in the first circuit, against X on the same qubit. The operators are
    equal, and with the alternating checker every run says so; with the construction checker alone every run answers 'not equivalent'. *)
Theorem C69_one_sided_garbage_refuted : exists (c1 c2 : circuit) (G1 G2 : {set Lg}),
  [/\ wf_circuit c1, wf_circuit c2, unitary_circuit c1 & unitary_circuit c2] /\ (forall V1 V2, realises c1 V1 -> realises c2 V2 -> V1 = V2) /\
  forall (q : package C Lg bool_eqType) (isClose : mat C Lg -> bool) (s : schemes) (eps : C) (Stim Gen : Type) (stim : Stim -> vec C Lg) (e : env Stim Gen) fuel pf m,
  exact_package q -> partial_test (G1 :&: G2) isClose -> good_schemes q c1 c2 s -> describes_partial q isClose s false c1 c2 set0 set0 G1 G2 eps stim e ->
  checkPartialEquivalence (func (m_cfg m)) = true -> undisturbed fuel e m -> runSimulationChecker (exec (m_cfg m)) = false ->
  exists2 r, SeqFlow.run fuel pf e m = Returned r &
    (runAlternatingChecker (exec (m_cfg m)) = true -> r_eq (m_res r) = Equivalent \/ r_eq (m_res r) = EquivalentUpToGlobalPhase) /\
    (runAlternatingChecker (exec (m_cfg m)) = false -> runConstructionChecker (exec (m_cfg m)) = true -> r_eq (m_res r) = NotEquivalent).
Proof.
exists (unread_circuit C), (read_circuit C), [set false], set0.
split; first by split; [exact: unread_wf|exact: read_wf|exact: unread_unitary|exact: read_unitary].
split; first by move=> V1 V2 /unread_V -> /read_V ->.
by move=> q isClose s eps Stim Gen stim e fuel pf m hq hp hs hd _; apply: one_sided_runs hd => //; move: hp; rewrite setI0.
Qed.

(** the hypotheses are met *)
Example C69_hypotheses_met :
  (exists e : env N N, [/\ exact_package pkg, partial_test [set false] (@demo_partial C Lg [set false]), good_schemes pkg (rot_circuit C) (zrot_circuit C) ds,
      describes_partial pkg (@demo_partial C Lg [set false]) ds false (rot_circuit C) (zrot_circuit C) set0 set0 [set false] [set false] 1 zs e &
      forall con alt, con || alt -> undisturbed 1 e (mkMgr (partial_cfg false con false alt 0) 0%num false nil empty_results)] /\
    one_leaves_alone (rot_circuit C) (zrot_circuit C) set0 /\ stimuli_fit set0 zs e 0%num /\
    exists x, [/\ par_undisturbed e (partial_cfg true false true true 4) 0%num, ~ zx_runs e (partial_cfg true false true true 4) &
                  run_to_end e (partial_cfg true false true true 4) 0%num (QArith_base.Qmake Z0 xH) x]) /\
  (exists e : env N N, [/\ partial_test set0 (@demo_partial C Lg set0), good_schemes pkg (unread_circuit C) (read_circuit C) ds,
      describes_partial pkg (@demo_partial C Lg set0) ds false (unread_circuit C) (read_circuit C) set0 set0 [set false] set0 1 zs e &
      forall con alt, con || alt -> undisturbed 1 e (mkMgr (partial_cfg false con false alt 0) 0%num false nil empty_results)]).
Proof.
split.
- have [v D] := described; exists (lost_env true MNotEquivalent MEquivalent v); split.
    by split; [exact: demo_exact|exact: demo_partial_test|exact: d_good|exact: D|move=> con alt h; exact: seq_undisturbed].
  split; first by left=> q; rewrite in_set0.
  split; first by move=> t _; exact: zs_unit.
  have [x [Rx Mx]] := alone_run v; exists x; split; [exact: alone_undisturbed|by case|split=> //; exact: returned_stuck].
- have gs : good_schemes pkg (unread_circuit C) (read_circuit C) ds.
    split; split=> //; split; first exact: demo_equals_exact.
    by apply: elided_placement => [o [<-|[]]|o [<-|[]]|o q _ _].
  have [ch [a [c [sm D]]]] := describes_partial_ex false (@unread_wf C) (@read_wf C) (@unread_unitary C) (@demo_partial C Lg set0) set0 set0 [set false] set0 1 zs
    (lost_env true MEquivalent MEquivalent SPhase) gs.
  have [hch ha hc hs] := D; rewrite /= in hch ha hc hs.
  have che : ch = true by rewrite hch; apply/forallP => x; rewrite !in_set0.
  exists (lost_env true a c (sm 0%num)); split; [exact: demo_partial_test|exact: gs| |by move=> con alt h; exact: seq_undisturbed].
  by subst ch; split=> //= t; exact: (hs 0%num).
Qed.
End Demo.
Print Assumptions C69_schedule_refuted.
Print Assumptions C69_one_sided_garbage_refuted.
