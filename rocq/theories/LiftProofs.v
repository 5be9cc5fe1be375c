From mathcomp Require Import all_ssreflect all_fingroup all_algebra.
From Verif Require Import DDCheck DDSpec Qubits QubitsProofs QubitsProofs2 DDSem PrepSem.
Set Implicit Arguments.
Unset Strict Implicit.
Unset Printing Implicit Defensive.
Import GRing.Theory Num.Theory GroupScope.
Local Open Scope ring_scope.

Section Lift.
Variables (C : numClosedFieldType) (Lg Lg' : finType) (f : Lg' -> Lg).
Hypothesis fi : injective f.
Local Notation lift := (@lift C Lg Lg' f).
Local Notation pull := (fun x : basis Lg => [ffun q : Lg' => x (f q)] : basis Lg').

(* basis states that agree outside the image of f *)
Definition off (x y : basis Lg) : bool := [forall q, (q \notin codom f) ==> (x q == y q)].
(* x' on the image of f, x elsewhere *)
Definition glue (x : basis Lg) (x' : basis Lg') : basis Lg := [ffun q => if [pick q' | f q' == q] is Some q' then x' q' else x q].

Lemma offP (x y : basis Lg) : reflect (forall q, q \notin codom f -> x q = y q) (off x y).
Proof. by apply: (iffP forallP) => H q; [move=> nq; apply/eqP; have := H q; rewrite nq|apply/implyP => nq; rewrite H]. Qed.
Lemma entry_lift V x y : entry (lift V) x y = if off x y then entry V (pull x) (pull y) else 0.
Proof. by rewrite entry_mx. Qed.
Lemma glue_in (x : basis Lg) (x' : basis Lg') q : glue x x' (f q) = x' q.
Proof. by rewrite ffunE; case: pickP => [q' /eqP /fi ->|/(_ q)] //; rewrite eqxx. Qed.
Lemma glue_out (x : basis Lg) (x' : basis Lg') q : q \notin codom f -> glue x x' q = x q.
Proof. by move=> nq; rewrite ffunE; case: pickP => // q' /eqP E; rewrite -E codom_f in nq. Qed.
Lemma pull_glue x x' : pull (glue x x') = x'.
Proof. by apply/ffunP => q; rewrite ffunE glue_in. Qed.
Lemma off_glue x x' : off x (glue x x').
Proof. by apply/offP => q nq; rewrite glue_out. Qed.
Lemma glue_pull x y : off x y -> glue x (pull y) = y.
Proof.
move/offP => H; apply/ffunP => q; case: (boolP (q \in codom f)) => [/codomP [q' ->]|nq]; first by rewrite glue_in ffunE.
by rewrite glue_out // H.
Qed.
Lemma off_sym x y : off x y = off y x.
Proof. by apply/offP/offP => H q nq; rewrite H. Qed.
Lemma off_trans x y z : off x y -> off y z = off x z.
Proof. by move/offP => H; apply/offP/offP => H' q nq; rewrite -H' // H. Qed.
Lemma pull_eq x y : (x == y) = off x y && (pull x == pull y).
Proof.
apply/eqP/andP => [->|[o /eqP E]]; first by split=> //; apply/offP.
by rewrite -(glue_pull o) -E glue_pull //; apply/offP.
Qed.

Lemma lift_mul (A B : mat C Lg') : lift (A *m B) = lift A *m lift B.
Proof.
apply: mxP => x y; rewrite entry_lift !entry_mul.
rewrite (bigID (fun z => off x z)) /= [X in _ + X]big1 ?addr0; last by move=> z nz; rewrite entry_lift (negbTE nz) mul0r.
rewrite (reindex_onto (glue x) (fun z => pull z)) /=; last by move=> z; exact: glue_pull.
transitivity (\sum_(z' : basis Lg') if off x y then entry A (pull x) z' * entry B z' (pull y) else 0).
  by case: (off x y) => //; rewrite big1.
rewrite [RHS](eq_bigl predT); last by move=> z'; rewrite off_glue pull_glue eqxx.
apply: eq_bigr => z' _; have o := off_glue x z'; rewrite !entry_lift o pull_glue.
have -> : off (glue x z') y = off x y by exact: off_trans.
by case: (off x y); rewrite ?mulr0.
Qed.
Lemma lift_1 : lift 1%:M = 1%:M.
Proof. by apply: mxP => x y; rewrite entry_lift !entry_1 pull_eq; case: (off x y). Qed.
Lemma lift_adj V : adj (lift V) = lift (adj V).
Proof. by apply: mxP => x y; rewrite entry_adj !entry_lift off_sym entry_adj; case: (off x y) => //; rewrite rmorph0. Qed.
Lemma lift_scale a V : lift (a *: V) = a *: lift V.
Proof. by apply: mxP => x y; rewrite entry_lift !entry_scale entry_lift; case: (off x y); rewrite ?mulr0. Qed.
Lemma lift_inj : injective lift.
Proof.
move=> A B E; apply: mxP => x' y'; pose z : basis Lg := [ffun _ => false].
have := congr1 (fun M : mat C Lg => entry M (glue z x') (glue z y')) E; rewrite /= !entry_lift !pull_glue.
suff -> : off (glue z x') (glue z y') by [].
by apply/offP => q nq; rewrite !glue_out.
Qed.

(* permutations *)
Definition lperm_fun (s : {perm Lg'}) (q : Lg) : Lg := if [pick q' | f q' == q] is Some q' then f (s q') else q.
Lemma lperm_in (s : {perm Lg'}) q : lperm_fun s (f q) = f (s q).
Proof. by rewrite /lperm_fun; case: pickP => [q' /eqP /fi ->|/(_ q)] //; rewrite eqxx. Qed.
Lemma lperm_out (s : {perm Lg'}) q : q \notin codom f -> lperm_fun s q = q.
Proof. by move=> nq; rewrite /lperm_fun; case: pickP => // q' /eqP E; rewrite -E codom_f in nq. Qed.
Lemma lperm_inj s : injective (lperm_fun s).
Proof.
move=> a b; case: (boolP (a \in codom f)) => [/codomP [a' ->]|na]; case: (boolP (b \in codom f)) => [/codomP [b' ->]|nb].
- by rewrite !lperm_in => /fi /perm_inj ->.
- by rewrite lperm_in lperm_out // => E; rewrite -E codom_f in nb.
- by rewrite lperm_in lperm_out // => E; rewrite E codom_f in na.
- by rewrite !lperm_out.
Qed.
Definition lperm s : {perm Lg} := PermDef.perm (@lperm_inj s).
Lemma lpermE s q : lperm s (f q) = f (s q). Proof. by rewrite permE lperm_in. Qed.
Lemma lpermN s q : q \notin codom f -> lperm s q = q. Proof. by move=> nq; rewrite permE lperm_out. Qed.
Lemma lift_Pm s : lift (Pm C s) = Pm C (lperm s).
Proof.
apply: mxP => x y; rewrite entry_lift !entry_Pm [y == _]pull_eq [off y _]off_sym.
have -> : off (along (lperm s) x) y = off x y by apply/offP/offP => H q nq; rewrite -H // ffunE lpermN.
case: (off x y) => //=; congr ((_ == _)%:R); apply/ffunP => q; by rewrite !ffunE lpermE.
Qed.
(* a permutation that fixes everything outside the image comes from below *)
Lemma lperm_onto (t : {perm Lg}) : (forall q, q \notin codom f -> t q = q) -> exists s, t = lperm s.
Proof.
move=> H; have K q : t (f q) \in codom f.
  apply/negPn/negP => n; have E := H _ n; have := @perm_inj _ t _ _ E => E'; by rewrite E' codom_f in n.
have inj : injective (fun q => iinv (K q)).
  by move=> a b E; apply: fi; apply: (@perm_inj _ t); rewrite -(f_iinv (K a)) -(f_iinv (K b)) E.
exists (PermDef.perm inj); apply/permP => q; case: (boolP (q \in codom f)) => [/codomP [q' ->]|nq]; last by rewrite lpermN // H.
by rewrite lpermE permE f_iinv.
Qed.
Lemma lperm_tperm a b : lperm (tperm a b) = tperm (f a) (f b).
Proof.
apply/permP => q; case: (boolP (q \in codom f)) => [/codomP [q' ->]|nq].
  by rewrite lpermE !permE /= !(inj_eq fi); case: (q' == a) => //; case: (q' == b).
by rewrite lpermN // tpermD //; apply: contraNneq nq => <-; exact: codom_f.
Qed.

(* gates, operations *)
Variable Ph : eqType.
Local Notation gate := (gate C Ph).
Lemma lift_gmx (g : gate) (p : Ph -> Lg') : lift (gmx g p) = gmx g (fun q => f (p q)).
Proof.
apply: mxP => x y; rewrite entry_lift !entry_mx /gker.
have -> : all (fun c => pull x (p c.1) == c.2) (g_ctrl g) = all (fun c => x (f (p c.1)) == c.2) (g_ctrl g) by apply: eq_all => c; rewrite ffunE.
case: (all _ (g_ctrl g)); last by rewrite [x == y]pull_eq; case: (off x y).
have E (z : basis Lg) : map (fun t => pull z (p t)) (g_tgt g) = map (fun t => z (f (p t))) (g_tgt g) by apply: eq_map => t; rewrite ffunE.
rewrite !E; have -> : [forall q, (q \notin map (fun t => f (p t)) (g_tgt g)) ==> (x q == y q)] =
    off x y && [forall q, (q \notin map p (g_tgt g)) ==> (pull x q == pull y q)].
  apply/forallP/andP => [H|[/offP H1 /forallP H2] q].
    split; first by apply/offP => q nq; apply/eqP; apply: (implyP (H q)); apply: contra nq => /mapP [t _ ->]; exact: codom_f.
    apply/forallP => q; apply/implyP => nq; rewrite !ffunE; apply: (implyP (H (f q))); apply: contra nq => /mapP [t tin /fi ->]; exact: map_f.
  apply/implyP => nq; case: (boolP (q \in codom f)) => [/codomP [q' e]|n]; last by rewrite H1.
  subst q; have := H2 q'; rewrite !ffunE => /implyP -> //; apply: contra nq => /mapP [t tin ->]; exact: (map_f (fun t => f (p t))).
by case: (off x y).
Qed.
Local Notation op := (op Ph gate).
Lemma lift_sem_op (L : Ph -> Lg') (o : op) : lift (sem_op L o) = sem_op (fun q => f (L q)) o.
Proof.
move: o; fix IH 1 => -[g|a b|l] /=; first exact: lift_gmx.
  by rewrite lift_Pm lperm_tperm.
by elim: l => [|o l E]; rewrite ?lift_1 // lift_mul E IH.
Qed.
Lemma lift_sem_ops (L : Ph -> Lg') (l : seq op) : lift (sem_ops L l) = sem_ops (fun q => f (L q)) l.
Proof. by elim: l => [|o l E] /=; rewrite ?lift_1 // lift_mul E lift_sem_op. Qed.

(* the projector *)
Lemma lift_agree (A : {set Lg}) w (V1 V2 : mat C Lg') : agree_up_to A w (lift V1) (lift V2) <-> agree_up_to (f @^-1: A) w V1 V2.
Proof.
have Z (A' : {set Lg}) (y : basis Lg) : [forall q in A', ~~ y q] = [forall q in f @^-1: A', ~~ pull y q] && [forall q in A' :\: [set q in codom f], ~~ y q].
  apply/forallP/andP => [H|[/forallP H1 /forallP H2] q]; last first.
    apply/implyP => qA; case: (boolP (q \in codom f)) => [/codomP [q' e]|nq]; last by apply: (implyP (H2 q)); rewrite !inE nq qA.
    by subst q; have := H1 q'; rewrite inE qA ffunE.
  split; apply/forallP => q; apply/implyP; first by rewrite inE ffunE => qA; apply: (implyP (H _)).
  by rewrite !inE => /andP [_ qA]; apply: (implyP (H q)).
split=> E.
- apply: mxP => x' y'; pose z : basis Lg := [ffun _ => false].
  have := congr1 (fun M : mat C Lg => entry M (glue z x') (glue z y')) E; rewrite /= !entry_scale !entry_projR !entry_lift !pull_glue Z pull_glue.
  have -> : off (glue z x') (glue z y') by apply/offP => q nq; rewrite !glue_out.
  suff -> : [forall q in A :\: [set q in codom f], ~~ glue z y' q] by rewrite andbT.
  by apply/forallP => q; apply/implyP; rewrite !inE => /andP [nq _]; rewrite glue_out // ffunE.
- apply: mxP => x y; rewrite entry_scale !entry_projR !entry_lift Z; case: (off x y); last by rewrite !mul0r mulr0.
  have := congr1 (fun M : mat C Lg' => entry M (pull x) (pull y)) E; rewrite /= !entry_scale !entry_projR -!mulnb !natrM !mulrA => ->.
  by rewrite -!mulrA.
Qed.
End Lift.
