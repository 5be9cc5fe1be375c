(** C85, end to end: a manager whose runs are all about the same two circuits. Only statements; the proofs are in LifeSemProofs.v. *)
From Coq Require Import BinNums List.
From mathcomp Require Import all_ssreflect all_fingroup all_algebra.
From Verif Require Import Criterion Config SeqFlow SeqSpec SeqDemo ParFlow ParSpec Perm ZX Schemes DDCheck DDSpec Qubits QubitsProofs DDSem DDSemProofs2 DDFlow DDFlowProofs
  DDDemo DDDemoProofs DDDemoProofs2 DDDemoProofs3 ZXSem ZXDemo ZXDemoProofs EndToEnd EndToEndProofs LifeSpec LifeSem LifeSemProofs.
Set Implicit Arguments.
Unset Strict Implicit.
Unset Printing Implicit Defensive.
Import GRing.Theory Num.Theory.
Local Open Scope ring_scope.

Section Dd.
Variables (C : numClosedFieldType) (Lg : finType) (Ph : eqType).
Local Notation circuit := (circuit Ph Lg (gate C Ph)).

(** decision-diagram checkers: whatever the sequence of setters, resets and runs in any flow (timeouts and schedules included), a definitive
    verdict is true of the circuits. [A1], [A2]: ancillaries of the circuits *)
Theorem C85_about_the_circuits : forall (zero : Ph) (c1 c2 : circuit),
  wf_circuit c1 -> wf_circuit c2 -> unitary_circuit c1 -> unitary_circuit c2 ->
  exists V1 V2, [/\ realises c1 V1, realises c2 V2 &
  forall (A1 A2 : {set Lg}) (Stim Gen : Type) (used : list (settings Stim Gen)) (m : manager Stim Gen), life used m ->
  (forall x, List.In x used -> about zero c1 c2 A1 A2 used x /\ without_zx x) ->
  definitive (r_eq (lf_res m)) -> true_verdict (A1 :&: A2) V1 V2 (r_eq (lf_res m))].
Proof. by move=> zero c1 c2; exact: life_true_dd. Qed.
End Dd.
Print Assumptions C85_about_the_circuits.

Section Zx.
Variables (C : numClosedFieldType) (n : nat).
Local Notation Lg := [finType of 'I_n].
Local Notation circuit := (circuit nat_eqType Lg (gate C nat_eqType)).

(** all four checkers: circuits without ancillaries and without common garbage; [zx_describes]: ZX verdicts are the checker's answers for
    diagrams that stand for D2 D1^+ *)
Theorem C85_about_the_circuits_zx : forall (zero : nat) (c1 c2 : circuit) (g1 g2 : nat -> bool),
  wf_circuit c1 -> wf_circuit c2 -> unitary_circuit c1 -> unitary_circuit c2 -> full_maps c1 -> full_maps c2 ->
  (forall i : 'I_n, ~~ (g1 i && g2 i)) ->
  exists V1 V2, [/\ realises c1 V1, realises c2 V2 &
  forall (Stim Gen : Type) (tr : bool) (used : list (settings Stim Gen)) (m : manager Stim Gen), life used m ->
  (forall x, List.In x used -> [/\ about zero c1 c2 set0 set0 used x, zx_describes g1 g2 c1 c2 x.1 & e_transformable x.1 = tr]) ->
  definitive (r_eq (lf_res m)) -> true_verdict set0 V1 V2 (r_eq (lf_res m))].
Proof. by move=> zero c1 c2 g1 g2; exact: life_true_zx. Qed.
End Zx.
Print Assumptions C85_about_the_circuits_zx.

(** *** the hypotheses can be met *)
Section Demo.
Variable C : numClosedFieldType.
Local Notation Lg := [finType of 'I_2].
Local Notation gate := (gate C nat_eqType).
Local Notation circuit := (circuit nat_eqType Lg gate).
Local Notation pkg := (demo_package C Lg nat_eqType).

(** H on one qubit, against a SWAP followed by H on the other qubit and exchanged outputs: a run with the alternating checker, a change of the
    settings, a run with the construction checker *)
Example C85_circuits_example :
  let c1 : circuit := zqc [:: Had C 0%N] out_id in
  let c2 : circuit := zqc [:: ZSwap C; Had C 1%N] out_swap in
  [/\ wf_circuit c1, wf_circuit c2, unitary_circuit c1 & unitary_circuit c2] /\
  exists (used : list (settings N N)) (m : manager N N),
    [/\ life used m, length used = 2%N, forall x, List.In x used -> about 0%N c1 c2 set0 set0 used x /\ without_zx x & definitive (r_eq (lf_res m))].
Proof.
move=> c1 c2; have [[W1 W2 U1 U2] [F1 F2 WD NI]] := demo_wf C; split=> //.
pose s := Schemes SOneToOne SOneToOne SOneToOne.
have gs : good_schemes pkg c1 c2 s.
  split; split=> //; split; first exact: demo_equals_exact.
  move=> pre1 o1 post1 pre2 o2 post2 /= E1 E2 H N1 N2; exfalso.
  have {E1} e1 : o1 = Had C 0%N by case: pre1 E1 => [|a [|b p]] //= -[].
  have {E2} e2 : o2 = ZSwap C \/ o2 = Had C 1%N.
    by case: pre2 E2 => [|a [|b [|? ?]]] //= -[]; auto.
  by move: H; rewrite e1; case: e2 => ->.
pose st := fun _ : N => \col_i ((i == enum_rank (basis0 Lg))%:R : C).
have [ch [a [c [sm D]]]] := @describes_ex C Lg nat_eqType 0%N c1 c2 W1 W2 U1 pkg s set0 set0 1 gs _ _ st
  (demo_env (fun _ => false) MEquivalent MEquivalent ZEquivalent true false None).
pose e := with_verdicts (demo_env (fun _ => false) MEquivalent MEquivalent ZEquivalent true false None) ch a c sm.
have che : ch = true by have [hch _ _ _] := D; rewrite -[ch]/(e_canHandle e) hch; apply/forallP => x; rewrite inE.
have ft y : fits (set0 :&: set0) (st y).
  split; last by rewrite setI0 proj0_none mul1mx.
  rewrite /inner mxE (bigD1 (enum_rank (basis0 Lg))) //= !mxE eqxx conjC_nat mulr1 big1 ?addr0 // => i /negbTE N.
  by rewrite !mxE N mulr0.
have ab u cfg : about 0%N c1 c2 set0 set0 u (e, cfg).
  split=> //; split; first by split=> // _ _; rewrite setI0; exact: handled_none.
  by exists pkg, s, 1, st; split=> //; [exact: demo_exact|exact: ltr01].
pose k1 := demo_cfg false false true false (BinNums.N0) (QArith_base.Qmake Z0 xH) true.
pose k2 := demo_cfg true false false false (BinNums.N0) (QArith_base.Qmake Z0 xH) true.
pose r0 : results N := mkResults NoInformation (BinNums.N0) (BinNums.N0) None None (QArith_base.Qmake Z0 xH).
exists [:: (e, k2); (e, k1)].
pose q1 : checker N := mkChecker KAlt (mcrit a) None; pose q2 : checker N := mkChecker KCon (mcrit c) None.
exists (mkManager k2 [:: (Some q1, false); (Some q2, false)] (set_eq (mcrit c) r0) (BinNums.N0)); split.
- have L0 := life_new (Stim := N) k1 ((BinNums.N0) : N) (QArith_base.Qmake Z0 xH).
  have L1 : life [:: (e, k1)] (mkManager k1 [:: (Some q1, false)] (set_eq (mcrit a) r0) ((BinNums.N0) : N)).
    apply: (@life_run N N [::] _ e 9 no_par false (mkMgr k1 ((BinNums.N0) : N) true [:: q1] (set_eq (mcrit a) r0)) _ L0 (or_introl _)) => //; last by left; constructor.
    by rewrite /e /q1 che; case: (a).
  have L2 := @life_configure _ _ _ _ k2 L1.
  apply: (@life_run N N _ _ e 9 no_par false (mkMgr k2 ((BinNums.N0) : N) true [:: q1; q2] (set_eq (mcrit c) r0)) _ L2 (or_introl _)) => //; last by left; constructor.
  by rewrite /e /q2; case: (c); case: (a).
- by [].
- by move=> x [<-|[<-|[]]].
- by rewrite /definitive /=; case: (c) => /=; tauto.
Qed.
End Demo.
