(** The stimuli are unit vectors with zeros on the ancillaries. *)
From mathcomp Require Import all_ssreflect all_fingroup all_algebra.
From Verif Require Import StateGen Qubits QubitsProofs DDSem DDFlow StimSpec StimSem.
Set Implicit Arguments.
Unset Strict Implicit.
Unset Printing Implicit Defensive.
Import GRing.Theory Num.Theory.
Local Open Scope ring_scope.

Section Ket.
Variables (C : numClosedFieldType) (n : nat).
Local Notation Lg := [finType of 'I_n].
Local Notation vec := (vec C Lg).
Local Notation amp := (amp C).

Lemma amp_unit b : (amp b true)^* * amp b true + (amp b false)^* * amp b false = 1.
Proof.
have s2 : sqrtC 2%:R != 0 :> C by rewrite sqrtC_eq0 pnatr_eq0.
have s2r : (sqrtC 2%:R : C)^* = sqrtC 2%:R by apply: geC0_conj; rewrite sqrtC_ge0 ler0n.
have s2s : (sqrtC 2%:R : C) * sqrtC 2%:R = 2%:R by rewrite -expr2 sqrtCK.
have half : (sqrtC 2%:R : C)^-1 * (sqrtC 2%:R)^-1 = 2%:R^-1 by rewrite -invfM s2s.
have sum : 2%:R^-1 + 2%:R^-1 = 1 :> C by rewrite [RHS](splitr 1) !div1r.
have ii : ('i : C)^* * 'i = 1 by rewrite conjCi mulNr -expr2 sqrCi opprK.
case: b => /=; rewrite ?rmorphM ?rmorphN ?rmorph1 ?rmorph0 ?fmorphV ?s2r.
- by rewrite mul0r add0r mul1r.
- by rewrite mul0r addr0 mul1r.
- by rewrite half.
- by rewrite mulrACA mulrNN !mul1r half.
- by rewrite [X in X + _]mulrACA [X in _ + X]mulrACA ii !mul1r half.
- by rewrite [X in X + _]mulrACA [X in _ + X]mulrACA mulrNN ii !mul1r half.
Qed.
Lemma inner_sum (f g : vec) : inner f g = \sum_(x : basis Lg) (f (enum_rank x) ord0)^* * g (enum_rank x) ord0.
Proof.
rewrite /inner mxE (reindex (@enum_rank [finType of basis Lg])) /=; last first.
  by exists enum_val => i _; rewrite ?enum_valK ?enum_rankK.
by apply: eq_bigr => x _; rewrite !mxE.
Qed.
Lemma product_unit l : inner (product_state C n l) (product_state C n l) = 1.
Proof.
rewrite inner_sum.
rewrite (eq_bigr (fun x : basis Lg => \prod_(q : 'I_n) ((amp (nth Bzero l q) (x q))^* * amp (nth Bzero l q) (x q)))).
  rewrite -(bigA_distr_bigA (fun (q : 'I_n) (v : bool) => (amp (nth Bzero l q) v)^* * amp (nth Bzero l q) v)).
  by rewrite big1 // => q _; rewrite big_bool /= amp_unit.
by move=> x _; rewrite !mxE enum_rankK rmorph_prod -big_split.
Qed.
Lemma projV (A : {set Lg}) (phi : vec) x : (proj0 C A *m phi) (enum_rank x) ord0 = ([forall q in A, ~~ x q])%:R * phi (enum_rank x) ord0.
Proof.
rewrite mxE (bigD1 (enum_rank x)) //= big1 ?addr0 => [|i /negbTE ni]; first by rewrite !mxE !enum_rankK eqxx.
rewrite !mxE enum_rankK; case: eqP => [e|_]; last by rewrite mul0r.
by move: ni; rewrite e enum_valK eqxx.
Qed.
Lemma vecP (f g : vec) : (forall x : basis Lg, f (enum_rank x) ord0 = g (enum_rank x) ord0) -> f = g.
Proof. by move=> H; apply/matrixP => i j; rewrite ord1 -(enum_valK i). Qed.
Lemma product_fits (A : {set Lg}) l : (forall q, q \in A -> nth Bzero l q = Bzero) -> fits A (product_state C n l).
Proof.
move=> H; split; first exact: product_unit.
apply: vecP => x; rewrite projV; case: (boolP [forall q in A, ~~ x q]) => [_|]; first by rewrite mul1r.
rewrite negb_forall => /existsP [q]; rewrite negb_imply negbK => /andP [qA xq].
by rewrite mxE enum_rankK (bigD1 q) //= H // xq !mul0r.
Qed.
Lemma fits_sub (A B : {set Lg}) phi : A \subset B -> @fits C Lg B phi -> fits A phi.
Proof.
move=> S [u F]; split=> //; rewrite -F mulmxA proj0_mul; congr (proj0 C _ *m phi); exact/setUidPr.
Qed.
Lemma nth_List (T : Type) (d : T) l q : List.nth q l d = nth d l q.
Proof. by elim: l q => [|a l IH] [|q] //=. Qed.
Lemma ket_fits clifford (A : {set Lg}) s : clifford_states clifford -> (forall q : 'I_n, q \in A -> zero_on s q) -> fits A (@ket C n clifford s).
Proof.
move=> hc H; case: s H => [l|l|x] /= H.
- apply: product_fits => q qA; have := H q qA; rewrite nth_List => E.
  case: (ltnP q (size l)) => ql; last by rewrite nth_default // size_map.
  by rewrite (nth_map false) // E.
- by apply: product_fits => q /H; rewrite nth_List.
- apply: fits_sub (hc x); apply/subsetP => q /H /leP; by rewrite inE.
Qed.
End Ket.
