(** C50 with the ZX checker, C63: what a whole run says about the two circuits. *)
From Coq Require Import BinNums NArith.
From mathcomp Require Import all_ssreflect all_fingroup all_algebra.
From Verif Require Import Criterion Config SeqFlow SeqSpec SeqDemo ParFlow ParSpec Perm ZX Schemes DDCheck DDSpec Qubits QubitsProofs DDSem DDSemProofs2 DDFlow DDFlowProofs
  DDDemo DDDemoProofs DDDemoProofs2 DDDemoProofs3 ZXSem ZXDemo ZXDemoProofs EndToEnd EndToEndProofs VerdictSpec.
Set Implicit Arguments.
Unset Strict Implicit.
Unset Printing Implicit Defensive.
Import GRing.Theory Num.Theory.
Local Open Scope ring_scope.

(** ** C50: all four checkers, nothing assumed about the truth of their verdicts *)
Section Z.
Variables (C : numClosedFieldType) (n : nat).
Local Notation Lg := [finType of 'I_n].
Local Notation gate := (gate C nat_eqType).
Local Notation circuit := (circuit nat_eqType Lg gate).
Local Notation mat := (mat C Lg).
Local Notation vec := (vec C Lg).

(** circuits without ancillaries and common garbage; [describes]: the verdicts of the decision-diagram checkers are those of their runs
    on the circuits, [zx_describes]: the ZX verdict is the checker's answer for a diagram that stands for D2 D1^+ *)
Theorem C50_with_zx_checker : forall (zero : nat) (c1 c2 : circuit) (g1 g2 : nat -> bool),
  wf_circuit c1 -> wf_circuit c2 -> unitary_circuit c1 -> unitary_circuit c2 -> full_maps c1 -> full_maps c2 ->
  (forall i : 'I_n, ~~ (g1 i && g2 i)) ->
  exists V1 V2 : mat, [/\ realises c1 V1, realises c2 V2 &
    forall (q : package C Lg nat_eqType) (s : schemes) (eps : C), exact_package q -> good_schemes q c1 c2 s -> 0 < eps ->
    forall (Stim Gen : Type) (stim : Stim -> vec) (e : env Stim Gen),
    describes q s zero c1 c2 set0 set0 eps stim e -> zx_describes g1 g2 c1 c2 e ->
    (forall fuel pf m m', stimuli_fit set0 stim e (m_gen m) -> choose_flow e (m_cfg m) = FSequential -> SeqFlow.run fuel pf e m = Returned m' ->
       definitive (r_eq (m_res m')) -> true_verdict set0 V1 V2 (r_eq (m_res m'))) /\
    (forall c g pp x, stimuli_fit set0 stim e g -> sane_sims c -> enough_threads e c -> par_returned e c g pp x ->
       definitive (r_eq (p_res x)) -> true_verdict set0 V1 V2 (r_eq (p_res x)))].
Proof. by move=> zero c1 c2 g1 g2; exact: all_true. Qed.
(** the phase that the ZX checker compares with 0 is the phase between the circuits *)
Theorem C55_phase_exact : forall m (V : finType) (D : diagram C n m V) (ph : C) nd anc done (g1 g2 : nat -> bool) (c1 c2 : circuit) (V1 V2 : mat) v,
  wf_circuit c1 -> wf_circuit c2 -> unitary_circuit c1 -> unitary_circuit c2 -> full_maps c1 -> full_maps c2 ->
  wf_diagram D -> no_isolated D -> denotes D ph (wire_op c2 *m adj (wire_op c1)) ->
  realises c1 V1 -> realises c2 V2 -> (forall i : 'I_n, ~~ (g1 i && g2 i)) ->
  zx_answer nd anc done g1 g2 c1 c2 D ph = ZVerdict v -> v = Equivalent \/ v = EquivalentUpToGlobalPhase ->
  [/\ V2 = ph *: V1, `|ph| = 1 & v = if ph == 1 then Equivalent else EquivalentUpToGlobalPhase].
Proof. by move=> m V D ph nd anc done g1 g2 c1 c2 V1 V2 v; exact: zx_phase. Qed.
End Z.
Print Assumptions C50_with_zx_checker.
Print Assumptions C55_phase_exact.

(** ** C63 *)
Section D.
Variables (C : numClosedFieldType) (Lg : finType) (Ph : eqType).
Local Notation mat := (mat C Lg).
Local Notation vec := (vec C Lg).
Local Notation gate := (gate C Ph).
Local Notation circuit := (circuit Ph Lg gate).

(** with the alternating checker configured, or only the construction checker and equal ancillaries, an uninterrupted sequential run decides
    the question, whatever else is configured and whatever the other checkers say. [A1], [A2]: ancillaries of the circuits, [A]: common ones *)
Theorem C63_sequential_run_decides : forall (zero : Ph) (c1 c2 : circuit),
  wf_circuit c1 -> wf_circuit c2 -> unitary_circuit c1 -> unitary_circuit c2 ->
  exists V1 V2 : mat, [/\ realises c1 V1, realises c2 V2 &
  forall (q : package C Lg Ph) (s : schemes) (A1 A2 : {set Lg}) (eps : C), exact_package q -> good_schemes q c1 c2 s -> 0 < eps ->
  let A := A1 :&: A2 in
  forall (Stim Gen : Type) (stim : Stim -> vec) (e : env Stim Gen), describes q s zero c1 c2 A1 A2 eps stim e ->
    forall fuel pf m l g', stimuli_fit A stim e (m_gen m) ->
    choose_flow e (m_cfg m) = FSequential -> never_fires e (m_cfg m) -> no_exceptions e (m_cfg m) ->
    runAlternatingChecker (exec (m_cfg m)) = true /\ (can_handle c1 c2 A1 A2 -> ancillaries_handled c1 c2 A) \/
    runAlternatingChecker (exec (m_cfg m)) = false /\ runConstructionChecker (exec (m_cfg m)) = true /\ A1 = A2 ->
    r_performed (m_res m) = 0%num -> draws e (m_gen m) l g' -> N.of_nat (length l) = maxSims (sim (m_cfg m)) ->
    (length l < fuel)%coq_nat -> (runSimulationChecker (exec (m_cfg m)) = true -> l = nil -> e_ndebug e = true) ->
    exists m', SeqFlow.run fuel pf e m = Returned m' /\
      [/\ r_eq (m_res m') = Equivalent <-> V1 *m proj0 C A = V2 *m proj0 C A,
          r_eq (m_res m') = EquivalentUpToGlobalPhase <-> exists w, [/\ `|w| = 1, w != 1 & V1 *m proj0 C A = w *: (V2 *m proj0 C A)] &
          r_eq (m_res m') = NotEquivalent <-> forall w, V1 *m proj0 C A <> w *: (V2 *m proj0 C A)]].
Proof. by move=> zero c1 c2; exact: run_decides. Qed.
End D.
Print Assumptions C63_sequential_run_decides.

(** ** the hypotheses are met *)
Section Demo.
Variable C : numClosedFieldType.
Local Notation Lg := [finType of 'I_2].
Local Notation gate := (gate C nat_eqType).
Local Notation circuit := (circuit nat_eqType Lg gate).
Local Notation pkg := (demo_package C Lg nat_eqType).
Local Notation none := (fun _ : nat => false).

(** H on one qubit, against a SWAP followed by H on the other qubit and exchanged outputs; all four checkers configured, the ZX checker
    says 'equivalent' *)
Example C50_C63_hypotheses_met :
  let c1 : circuit := zqc [:: Had C 0%N] out_id in
  let c2 : circuit := zqc [:: ZSwap C; Had C 1%N] out_swap in
  let s := Schemes SOneToOne SOneToOne SOneToOne in
  [/\ wf_circuit c1, wf_circuit c2, unitary_circuit c1 & unitary_circuit c2] /\
  [/\ full_maps c1, full_maps c2, exact_package pkg & good_schemes pkg c1 c2 s] /\
  exists ch a c sm, let e := with_verdicts (demo_env (fun _ => false) MEquivalent MEquivalent ZEquivalent true false None) ch a c sm in
    [/\ describes pkg s 0%N c1 c2 set0 set0 1 (fun _ => \col_i ((i == enum_rank (basis0 Lg))%:R : C)) e, e_transformable e = true &
        zx_describes none none c1 c2 e] /\
    [/\ stimuli_fit set0 (fun _ : N => \col_i ((i == enum_rank (basis0 Lg))%:R : C)) e 0%num, choose_flow e (demo_cfg true true true true 3%num (QArith_base.Qmake Z0 xH) true) = FSequential,
        never_fires e (demo_cfg true true true true 3%num (QArith_base.Qmake Z0 xH) true), no_exceptions e (demo_cfg true true true true 3%num (QArith_base.Qmake Z0 xH) true) &
        draws e 0%num [:: 0; 1; 2]%num 3%num].
Proof.
move=> c1 c2 s; have [[W1 W2 U1 U2] [F1 F2 WD NI]] := demo_wf C.
have gs : good_schemes pkg c1 c2 s.
  split; split=> //; split; first exact: demo_equals_exact.
  move=> pre1 o1 post1 pre2 o2 post2 /= E1 E2 H N1 N2; exfalso.
  have {E1} e1 : o1 = Had C 0%N by case: pre1 E1 => [|a [|b p]] //= -[].
  have {E2} e2 : o2 = ZSwap C \/ o2 = Had C 1%N.
    by case: pre2 E2 => [|a [|b [|? ?]]] //= -[]; auto.
  by move: H; rewrite e1; case: e2 => ->.
split=> //; split; first by split=> //; exact: demo_exact.
have [ch [a [c [sm D]]]] := @describes_ex C Lg nat_eqType 0%N c1 c2 W1 W2 U1 pkg s set0 set0 1 gs _ _ (fun _ : N => \col_i ((i == enum_rank (basis0 Lg))%:R : C))
  (demo_env (fun _ => false) MEquivalent MEquivalent ZEquivalent true false None).
exists ch, a, c, sm; split; last first.
  have [hch _ _ _] := D.
  have che : ch = true by rewrite -[ch]/(e_canHandle (with_verdicts (demo_env (fun _ => false) MEquivalent MEquivalent ZEquivalent true false None) ch a c sm)) hch; apply/forallP => x; rewrite inE.
  split=> //; last (by do 3!(econstructor; first by reflexivity); constructor).
  move=> t _; split; last by rewrite proj0_0 mul1mx.
  rewrite /inner mxE (bigD1 (enum_rank (basis0 Lg))) //= !mxE eqxx conjC_nat mulr1 big1 ?addr0 // => i /negbTE N.
  by rewrite !mxE N mulr0.
split=> // _.
exists 2%N, [finType of bool * 'I_2], (wires_diagram C sw (fun _ => false)), 1; split=> //; first exact: demo_denotes.
exact: demo_answer.
Qed.
End Demo.
