(** Facts about the small circuits of DDDemo.v. *)
From Coq Require Import BinNums.
From mathcomp Require Import all_ssreflect all_fingroup all_algebra.
From Verif Require Import Criterion Schemes DDCheck DDSpec DDProofs Qubits QubitsProofs GateProofs QubitsProofs2 DDSem DDSemProofs
  DDSemProofs2 DDSemProofs3 DDSemProofs4 DDSemProofs5 DDDemo.
Set Implicit Arguments.
Unset Strict Implicit.
Unset Printing Implicit Defensive.
Import GRing.Theory Num.Theory.
Local Open Scope ring_scope.

Section P.
Variable C : numClosedFieldType.
Local Notation gate := (gate C bool_eqType).
Local Notation basis := (basis bool_finType).
Local Notation mat := (mat C bool_finType).
Local Notation proj0 := (@proj0 C bool_finType).

Lemma sum1tuple (F : seq bool -> C) : \sum_(b : 1.-tuple bool) F b = F [:: true] + F [:: false].
Proof.
rewrite (reindex (fun b : bool => [tuple b])) /=; last first.
  exists (fun t : 1.-tuple bool => thead t) => [b _|t _]; first by [].
  by rewrite [t in RHS]tuple_eta; apply/val_inj => /=; case: t => -[|a [|? ?]].
by rewrite big_bool.
Qed.
Lemma xmat_unitary (a c : seq bool) : size a = 1%N -> size c = 1%N ->
  \sum_(b : 1.-tuple bool) xmat C a b * (xmat C c b)^* = (a == c)%:R.
Proof.
case: a => [|a [|? ?]] // _; case: c => [|c [|? ?]] // _.
rewrite (sum1tuple (fun b => xmat C [:: a] b * (xmat C [:: c] b)^* )) /xmat !conjC_nat -!natrM -natrD; congr (_%:R).
by case: a; case: c.
Qed.
Lemma xgate_unitary q : unitary_gate bool_finType (xgate C q).
Proof. by apply: unitary_matrix_gate; split=> //=; exact: xmat_unitary. Qed.
Lemma cxgate_unitary c t : c != t -> unitary_gate bool_finType (cxgate C c t).
Proof.
move=> Hct; apply: unitary_matrix_gate; split=> //=; last exact: xmat_unitary.
by move=> q; rewrite !inE => /eqP ->.
Qed.

(** ** functions on basis states as operators *)
Definition fm (f : basis -> basis) : mat := mx (fun x y => (y == f x)%:R).
Lemma entry_fm f x y : entry (fm f) x y = (y == f x)%:R. Proof. by rewrite entry_mx. Qed.
Lemma fm_mul f (A : mat) x z : entry (fm f *m A) x z = entry A (f x) z.
Proof.
rewrite entry_mul (bigD1 (f x)) //= entry_fm eqxx mul1r big1 ?addr0 // => y Hy.
by rewrite entry_fm (negbTE Hy) mul0r.
Qed.
Lemma fm_comp f g : fm f *m fm g = fm (fun x => g (f x)).
Proof. by apply: mxP => x z; rewrite fm_mul !entry_fm. Qed.
Lemma Pm_fm s : Pm C s = fm (along s). Proof. by []. Qed.
Definition flip (q : bool) (x : basis) : basis := [ffun r => if r == q then ~~ x r else x r].
Lemma flipE (q : bool) (x y : basis) : [forall r, (r \notin [:: q]) ==> (x r == y r)] && (x q != y q) = (y == flip q x).
Proof.
apply/andP/eqP => [[/forallP H N]|->].
- apply/ffunP => r; rewrite ffunE; case: eqP => [->|/eqP Nr]; first by move: N; case: (x q); case: (y q).
  by move: (H r); rewrite inE Nr /= => /eqP.
- split; last by rewrite ffunE eqxx; case: (x q).
  by apply/forallP => r; apply/implyP; rewrite inE ffunE => /negbTE ->.
Qed.
Lemma X_fm q p : gmx (xgate C q) p = fm (flip (p q)).
Proof.
apply: mxP => x y; rewrite entry_mx entry_fm -flipE /gker /= /xmat eqseq_cons andbT.
by case: ifP => //=.
Qed.
Definition cflip (c t : bool) (x : basis) : basis := if x c then flip t x else x.
Lemma CX_fm c t p : gmx (cxgate C c t) p = fm (cflip (p c) (p t)).
Proof.
apply: mxP => x y; rewrite entry_mx entry_fm /gker /= /xmat /cflip eqseq_cons !andbT eqb_id.
by case: (x (p c)); rewrite ?(eq_sym x) // -flipE; case: ifP.
Qed.

(** states of the two qubits *)
Definition st (a b : bool) : basis := [ffun q => if q then b else a].
Lemma stE (x : basis) : x = st (x false) (x true). Proof. by apply/ffunP => -[]; rewrite ffunE. Qed.
Lemma st_eq a b c d : (st a b == st c d) = (a == c) && (b == d).
Proof.
apply/eqP/andP => [E|[/eqP -> /eqP ->]] //; split; apply/eqP.
- by move/ffunP: E => /(_ false); rewrite !ffunE.
- by move/ffunP: E => /(_ true); rewrite !ffunE.
Qed.
Lemma flip_st q a b : flip q (st a b) = if q then st a (~~ b) else st (~~ a) b.
Proof. by apply/ffunP => -[]; case: q; rewrite !ffunE. Qed.
Lemma cflip_st c t a b : cflip c t (st a b) = if (if c then b else a) then (if t then st a (~~ b) else st (~~ a) b) else st a b.
Proof. by rewrite /cflip ffunE flip_st; case: c. Qed.
Lemma along_st (s : {perm bool}) a b : along s (st a b) = st (if s false then b else a) (if s true then b else a).
Proof. by apply/ffunP => -[]; rewrite !ffunE. Qed.

(** ** well-formedness *)
Lemma qc2_wf L O (l : seq (op bool gate)) : injective L -> injective O -> wf_circuit (Lg := bool_finType) (Ph := bool_eqType) (qc2 L O l).
Proof.
move=> HL HO; split=> //=.
- by move=> a b _ _; apply: HL.
- by move=> o q _ _; rewrite !inE; case: q.
- split=> //=; first by rewrite inE andbT; apply/eqP => /HO.
  move=> v _; have : L false != L true by apply/eqP => /HL.
  by rewrite !inE; case: v; case: (L false); case: (L true).
Qed.
(** the operator of a circuit on two qubits is unique *)
Lemma qc2_realises L O (l : seq (op bool gate)) V : realises (Lg := bool_finType) (Ph := bool_eqType) (qc2 L O l) V ->
  exists2 s : {perm bool}, (forall i, s (L i) = O i) & V = Pm C s *m sem_ops (L : bool_eqType -> bool_finType) l.
Proof.
case=> s [H1 _ ->]; exists s => // -[]; apply: H1; by rewrite !inE eqxx ?orbT.
Qed.
Lemma id_perm (s : {perm bool}) : (forall i, s i = i) -> s = 1%g.
Proof. by move=> H; apply/permP => i; rewrite H perm1. Qed.
End P.
