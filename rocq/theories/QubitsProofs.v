(** Lemmas about operators on qubits. *)
From mathcomp Require Import all_ssreflect all_fingroup all_algebra.
From Verif Require Import DDCheck DDSpec DDProofs Qubits.
Set Implicit Arguments.
Unset Strict Implicit.
Unset Printing Implicit Defensive.
Import GRing.Theory Num.Theory.
Local Open Scope ring_scope.

Section Basic.
Variables (C : numClosedFieldType) (Lg : finType).
Local Notation basis := (basis Lg).
Local Notation mat := (mat C Lg).
Local Notation mx := (@mx C Lg).
Local Notation Pm := (@Pm C Lg).
Local Notation proj0 := (@proj0 C Lg).

Lemma mxP (A B : mat) : (forall x y, entry A x y = entry B x y) -> A = B.
Proof. by move=> H; apply/matrixP=> i j; move: (H (enum_val i) (enum_val j)); rewrite /entry !enum_valK. Qed.
Lemma entry_mx k x y : entry (mx k) x y = k x y.
Proof. by rewrite /entry mxE !enum_rankK. Qed.
Lemma entry_mul (A B : mat) x z : entry (A *m B) x z = \sum_(y : basis) entry A x y * entry B y z.
Proof.
rewrite /entry mxE (reindex (@enum_rank _)) /=; first by [].
by exists (@enum_val _ _) => i _; rewrite ?enum_rankK ?enum_valK.
Qed.
Lemma entry_adj (A : mat) x y : entry (adj A) x y = (entry A y x)^*.
Proof. by rewrite /entry /adj mxE mxE. Qed.
Lemma entry_1 x y : entry (1%:M : mat) x y = (x == y)%:R.
Proof. by rewrite /entry mxE (inj_eq (@enum_rank_inj _)). Qed.
Lemma entry_scale a (A : mat) x y : entry (a *: A) x y = a * entry A x y.
Proof. by rewrite /entry mxE. Qed.
Lemma entry_sub (A B : mat) x y : entry (A - B) x y = entry A x y - entry B x y.
Proof. by rewrite /entry !mxE. Qed.
Lemma entry_0 x y : entry (0 : mat) x y = 0.
Proof. by rewrite /entry mxE. Qed.
Lemma mxtrace_entry (A : mat) : \tr A = \sum_(x : basis) entry A x x.
Proof.
rewrite /mxtrace (reindex (@enum_rank _)) /=; first by [].
by exists (@enum_val _ _) => i _; rewrite ?enum_rankK ?enum_valK.
Qed.

Lemma adj_mul m n p (A : 'M[C]_(m, n)) (B : 'M[C]_(n, p)) : adj (A *m B) = adj B *m adj A.
Proof. by rewrite /adj map_mxM trmx_mul. Qed.
Lemma adjK m n (A : 'M[C]_(m, n)) : adj (adj A) = A.
Proof. by apply/matrixP=> i j; rewrite /adj !mxE conjCK. Qed.
Lemma adj_1 n : adj (1%:M : 'M[C]_n) = 1%:M.
Proof. by rewrite /adj map_mx1 trmx1. Qed.
Lemma adj_scale m n a (A : 'M[C]_(m, n)) : adj (a *: A) = a^* *: adj A.
Proof. by apply/matrixP=> i j; rewrite /adj !mxE rmorphM. Qed.
Lemma adj_inj m n : injective (@adj C m n).
Proof. by move=> A B E; rewrite -[A]adjK E adjK. Qed.
Lemma adj_sub m n (A B : 'M[C]_(m, n)) : adj (A - B) = adj A - adj B.
Proof. by apply/matrixP=> i j; rewrite /adj !mxE rmorphB. Qed.

Lemma unitary_left (A : mat) : unitary A -> adj A *m A = 1%:M.
Proof. exact: mulmx1C. Qed.
Lemma unitary_mul (A B : mat) : unitary A -> unitary B -> unitary (A *m B).
Proof.
move=> HA HB; rewrite /unitary adj_mul mulmxA -(mulmxA A B) HB mulmx1. exact: HA.
Qed.
Lemma unitary_1 : unitary (1%:M : mat).
Proof. by rewrite /unitary adj_1 mulmx1. Qed.
Lemma unitary_adj (A : mat) : unitary A -> unitary (adj A).
Proof. by move=> H; rewrite /unitary adjK; apply: unitary_left. Qed.

(** ** permutation operators *)
Definition along (s : {perm Lg}) (x : basis) : basis := [ffun q => x (s q)].
Lemma along_comp s t x : along t (along s x) = along (t * s)%g x.
Proof. by apply/ffunP=> q; rewrite !ffunE permM. Qed.
Lemma along1 x : along 1 x = x.
Proof. by apply/ffunP=> q; rewrite ffunE perm1. Qed.
Lemma alongK s : cancel (along s) (along s^-1).
Proof. by move=> x; rewrite along_comp mulVg along1. Qed.
Lemma alongVK s : cancel (along s^-1) (along s).
Proof. by move=> x; rewrite along_comp mulgV along1. Qed.
Lemma entry_Pm s x y : entry (Pm s) x y = (y == along s x)%:R.
Proof. by rewrite entry_mx. Qed.

Lemma entry_PmL s (A : mat) x z : entry (Pm s *m A) x z = entry A (along s x) z.
Proof.
rewrite entry_mul (bigD1 (along s x)) //= entry_Pm eqxx mul1r big1 ?addr0 // => y Hy.
by rewrite entry_Pm (negbTE Hy) mul0r.
Qed.
Lemma entry_PmR s (A : mat) x z : entry (A *m Pm s) x z = entry A x (along s^-1 z).
Proof.
rewrite entry_mul (bigD1 (along s^-1 z)) //= entry_Pm alongVK eqxx mulr1 big1 ?addr0 // => y Hy.
rewrite entry_Pm; case: eqP => [E|_]; last by rewrite mulr0.
by move: Hy; rewrite E alongK eqxx.
Qed.
Lemma Pm_mul s t : Pm s *m Pm t = Pm (t * s)%g.
Proof. by apply: mxP => x y; rewrite entry_PmL !entry_Pm along_comp. Qed.
Lemma Pm_1 : Pm 1 = 1%:M.
Proof. by apply: mxP => x y; rewrite entry_Pm entry_1 along1 eq_sym. Qed.
Lemma adj_Pm s : adj (Pm s) = Pm s^-1.
Proof.
apply: mxP => x y; rewrite entry_adj !entry_Pm.
rewrite (_ : (x == along s y) = (y == along s^-1 x)); first by rewrite conjC_nat.
by apply/eqP/eqP => ->; rewrite ?alongK ?alongVK.
Qed.
Lemma unitary_Pm s : unitary (Pm s).
Proof. by rewrite /unitary adj_Pm Pm_mul mulVg Pm_1. Qed.
Lemma adj_swap a b : adj (Pm (tperm a b)) = Pm (tperm a b).
Proof. by rewrite adj_Pm tpermV. Qed.

(** ** projectors *)
Lemma entry_proj0 A x y : entry (proj0 A) x y = ((x == y) && [forall q in A, ~~ x q])%:R.
Proof. by rewrite entry_mx. Qed.
Lemma entry_projL A (B : mat) x z : entry (proj0 A *m B) x z = ([forall q in A, ~~ x q])%:R * entry B x z.
Proof.
rewrite entry_mul (bigD1 x) //= entry_proj0 eqxx /= big1 ?addr0 // => y Hy.
by rewrite entry_proj0 eq_sym (negbTE Hy) mul0r.
Qed.
Lemma entry_projR A (B : mat) x z : entry (B *m proj0 A) x z = entry B x z * ([forall q in A, ~~ z q])%:R.
Proof.
rewrite entry_mul (bigD1 z) //= entry_proj0 eqxx /= big1 ?addr0 // => y Hy.
by rewrite entry_proj0 (negbTE Hy) mulr0.
Qed.
Lemma proj0_mul A B : proj0 A *m proj0 B = proj0 (A :|: B).
Proof.
apply: mxP => x z; rewrite entry_projL !entry_proj0; case: (x == z) => /=; last by rewrite mulr0.
rewrite -natrM mulnb; congr ((nat_of_bool _)%:R); apply/andP/forallP.
- case=> /forallP HA /forallP HB q; apply/implyP; rewrite in_setU => /orP[] Hq.
  + by move: (HA q); rewrite Hq.
  + by move: (HB q); rewrite Hq.
- move=> H; split; apply/forallP => q; apply/implyP => Hq; move: (H q); rewrite in_setU Hq ?orbT; exact.
Qed.
Lemma proj0_idem A : proj0 A *m proj0 A = proj0 A.
Proof. by rewrite proj0_mul setUid. Qed.
Lemma adj_proj0 A : adj (proj0 A) = proj0 A.
Proof. by apply: mxP => x y; rewrite entry_adj !entry_proj0 conjC_nat eq_sym; case: eqP => [->|]. Qed.
Lemma proj0_0 : proj0 set0 = 1%:M.
Proof.
apply: mxP => x y; rewrite entry_proj0 entry_1; case: (x == y) => //=.
by rewrite (_ : [forall q in _, _]) //; apply/forallP => q; rewrite in_set0.
Qed.
(** moving the qubits moves the projector *)
Lemma Pm_proj0 s A : Pm s *m proj0 A = proj0 [set s q | q in A] *m Pm s.
Proof.
apply: mxP => x z; rewrite entry_PmL entry_projL entry_proj0 entry_Pm eq_sym.
case: (z == along s x) => /=; last by rewrite mulr0.
rewrite mulr1; congr ((nat_of_bool _)%:R); apply/forallP/forallP => H q; apply/implyP => Hq.
- by case/imsetP: Hq => r Hr ->; move: (H r); rewrite Hr ffunE.
- by rewrite ffunE; move: (H (s q)); rewrite imset_f.
Qed.

(** ** positivity *)
Lemma tr_adj_eq0 (A : mat) : \tr (adj A *m A) = 0 -> A = 0.
Proof.
move=> H; apply: mxP => y x; rewrite entry_0.
have H2 : \sum_(x : basis) \sum_(y : basis) (entry A y x)^* * entry A y x = 0.
  by rewrite -[RHS]H mxtrace_entry; apply: eq_bigr => z _; rewrite entry_mul; apply: eq_bigr => w _; rewrite entry_adj.
have P0 : forall x y, 0 <= (entry A y x)^* * entry A y x by move=> a b; rewrite mulrC mul_conjC_ge0.
have H3 := psumr_eq0P (fun i _ => sumr_ge0 _ (fun j _ => P0 i j)) H2.
have H4 := psumr_eq0P (fun j _ => P0 x j) (H3 x isT).
by move: (H4 y isT) => /eqP; rewrite mulrC mul_conjC_eq0 => /eqP.
Qed.
End Basic.
