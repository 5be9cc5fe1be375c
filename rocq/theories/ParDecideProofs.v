From Coq Require Import BinNums NArith QArith.
From mathcomp Require Import all_ssreflect all_fingroup all_algebra.
From Verif Require Import Criterion Config SeqFlow SeqSpec ParFlow ParSpec PropPar Schemes DDCheck DDSpec Qubits QubitsProofs DDSem DDSemProofs2 DDFlow DDFlowProofs
  Perm ZX ZXSem EndToEnd EndToEndProofs Choice ParDecide.
Set Implicit Arguments.
Unset Strict Implicit.
Unset Printing Implicit Defensive.
Import GRing.Theory Num.Theory.
Local Open Scope ring_scope.

Section P.
Variables (C : numClosedFieldType) (Lg : finType) (Ph : eqType).
Local Notation mat := (mat C Lg).
Local Notation vec := (vec C Lg).
Local Notation gate := (gate C Ph).
Local Notation circuit := (circuit Ph Lg gate).
Variables (zero : Ph) (c1 c2 : circuit).
Hypotheses (W1 : wf_circuit c1) (W2 : wf_circuit c2) (U1 : unitary_circuit c1) (U2 : unitary_circuit c2).

Theorem par_decides : exists V1 V2, [/\ realises c1 V1, realises c2 V2 &
  forall (q : package C Lg Ph) (s : schemes) (A1 A2 : {set Lg}) (eps : C), exact_package q -> good_schemes q c1 c2 s -> 0 < eps ->
  let A := A1 :&: A2 in
  forall (Stim Gen : Type) (stim : Stim -> vec) (e : env Stim Gen), describes q s zero c1 c2 A1 A2 eps stim e ->
    forall c g pp x, (zx_runs e c -> zcrit (e_ancilla e) (e_zx e) = Equivalent \/ zcrit (e_ancilla e) (e_zx e) = EquivalentUpToGlobalPhase ->
       true_verdict A V1 V2 (zcrit (e_ancilla e) (e_zx e))) -> ancillaries_fit c c1 c2 A1 A2 -> stimuli_fit A stim e g -> exact_configured c -> par_undisturbed e c g ->
    ~ (zx_runs e c /\ zcrit (e_ancilla e) (e_zx e) = ProbablyNotEquivalent) -> run_to_end e c g pp x ->
    p_main x = MReturned /\ right_answer A V1 V2 (r_eq (p_res x))].
Proof.
have [V1 [V2 [R1 R2 H]]] := checkers_true zero W1 W2 U1 U2.
exists V1, V2; split=> // q s A1 A2 eps hq hs eps0 A Stim Gen stim e hd c g pp x hz [fa fc] hst ex [hf [hss [het [hne [hg hto]]]]] nz [hr hst'].
have UV2 := unitary_realises W2 U2 R2.
have ret : p_main x = MReturned.
  apply: (C06_returns e c g pp x) => //.
  by move=> [ha [hc _]]; case: ex; rewrite ?ha ?hc.
have hret : par_returned e c g pp x by split.
split=> //.
have D : r_eq (p_res x) = Equivalent \/ r_eq (p_res x) = EquivalentUpToGlobalPhase \/ r_eq (p_res x) = NotEquivalent.
  case: (C15_definitive_without_zx_disagreement e c g pp x hss het hret hto ex).
  - by move=> [z1 [z2 [z3 z4]]]; apply: nz; split; first by []; rewrite z3 z4.
  - by case=> [[_ [_ <-]]|[_ <-]]; [case: (e_alt e)|case: (e_con e)]; auto.
  - by case=> [[_ [->|->]]|[-> _]]; auto.
apply: (exclusive UV2 D).
have [HA HC HS] := H q s A1 A2 eps hq hs eps0 Stim Gen stim e hd.
apply: (@C02_parallel_sound _ _ (true_verdict A V1 V2) e c g pp x) => //.
- by move=> ra; apply: HA; exact: fa.
- by move=> rc; apply: HC; exact: fc.
- by move=> rz tz; apply: hz.
- by move=> t dt Et; exact: (HS t (hst t dt) Et).
- by rewrite /definitive; case: D => [->|[->|->]]; auto.
Qed.
End P.

Section Z.
Variables (C : numClosedFieldType) (n : nat).
Local Notation Lg := [finType of 'I_n].
Local Notation gate := (gate C nat_eqType).
Local Notation circuit := (circuit nat_eqType Lg gate).
Local Notation mat := (mat C Lg).
Local Notation vec := (vec C Lg).
Variables (zero : nat) (c1 c2 : circuit) (g1 g2 : nat -> bool).
Hypotheses (W1 : wf_circuit c1) (W2 : wf_circuit c2) (U1 : unitary_circuit c1) (U2 : unitary_circuit c2).
Hypotheses (F1 : full_maps c1) (F2 : full_maps c2) (ng : forall i : 'I_n, ~~ (g1 i && g2 i)).
Theorem par_decides_zx : exists V1 V2, [/\ realises c1 V1, realises c2 V2 &
  forall (q : package C Lg nat_eqType) (s : schemes) (eps : C), exact_package q -> good_schemes q c1 c2 s -> 0 < eps ->
  forall (Stim Gen : Type) (stim : Stim -> vec) (e : env Stim Gen), describes q s zero c1 c2 set0 set0 eps stim e -> zx_describes g1 g2 c1 c2 e ->
    forall c g pp x, stimuli_fit set0 stim e g -> exact_configured c -> par_undisturbed e c g ->
    ~ (zx_runs e c /\ zcrit (e_ancilla e) (e_zx e) = ProbablyNotEquivalent) -> run_to_end e c g pp x ->
    p_main x = MReturned /\ right_answer set0 V1 V2 (r_eq (p_res x))].
Proof.
have [V1 [V2 [R1 R2 H]]] := par_decides zero W1 W2 U1 U2.
exists V1, V2; split=> // q s eps hq hs eps0 Stim Gen stim e hd hz c g pp x.
have := H q s set0 set0 eps hq hs eps0 Stim Gen stim e hd c g pp x; rewrite /= setI0; apply; first by move=> [_ tz]; exact: (zx_verdict_true W1 W2 U1 U2 F1 F2 ng R1 R2 hz).
by split=> // _ _; rewrite setI0; exact: handled_none.
Qed.
End Z.
