(** Gates under permutations of the qubits; tracking SWAPs; changePermutation. *)
From mathcomp Require Import all_ssreflect all_fingroup all_algebra.
From Verif Require Import Schemes DDCheck DDSpec DDProofs Qubits QubitsProofs.
Set Implicit Arguments.
Unset Strict Implicit.
Unset Printing Implicit Defensive.
Import GRing.Theory Num.Theory.
Local Open Scope ring_scope.

Section Track.
Variables (C : numClosedFieldType) (Lg : finType) (Ph : eqType).
Local Notation basis := (basis Lg).
Local Notation mat := (mat C Lg).
Local Notation Pm := (@Pm C Lg).
Local Notation gate := (gate C Ph).
Local Notation op := (op Ph gate).
Local Notation xpkg := (@xpkg C Lg Ph).
Local Notation getDD := (getDD Ph Lg gate mat eq_op xpkg).
Local Notation trace := (trace eq_op xpkg).

(** ** covariance *)
Lemma gker_cov (g : gate) (s : {perm Lg}) p x y : gker g (fun q => s (p q)) x y = gker g p (along s x) (along s y).
Proof.
rewrite /gker.
have -> : all (fun c => along s x (p c.1) == c.2) (g_ctrl g) = all (fun c => x (s (p c.1)) == c.2) (g_ctrl g).
  by apply: eq_all => c; rewrite ffunE.
case: ifP => _; last by rewrite (can_eq (alongK s)).
have -> : [forall q, (q \notin [seq p i | i <- g_tgt g]) ==> (along s x q == along s y q)] =
          [forall q, (q \notin [seq s (p q0) | q0 <- g_tgt g]) ==> (x q == y q)].
  apply/forallP/forallP => H q.
  - apply/implyP => Hq; move: (H (s^-1 q)%g); rewrite !ffunE permKV; move/implyP; apply.
    apply: contra Hq => /mapP[t Ht E]; apply/mapP; exists t => //; by rewrite -E permKV.
  - apply/implyP => Hq; rewrite !ffunE; move/implyP: (H (s q)); apply.
    apply: contra Hq => /mapP[t Ht /perm_inj E]; apply/mapP; by exists t.
case: ifP => _ //; congr (g_mat g _ _); apply: eq_map => t; by rewrite ffunE.
Qed.
Lemma gmx_cov (g : gate) (s : {perm Lg}) p : Pm s *m gmx g p = gmx g (fun q => s (p q)) *m Pm s.
Proof. by apply: mxP => x z; rewrite entry_PmL entry_PmR !entry_mx gker_cov alongVK. Qed.
Lemma gmx_in (g : gate) p p' : {in g_qubits g, p =1 p'} -> gmx g p = gmx g p' :> mat.
Proof.
move=> H; apply: mxP => x y; rewrite !entry_mx /gker.
have Ht : {in g_tgt g, p =1 p'} by move=> t Ht; apply: H; rewrite mem_cat Ht orbT.
have -> : all (fun c => x (p c.1) == c.2) (g_ctrl g) = all (fun c => x (p' c.1) == c.2) (g_ctrl g).
  by apply: eq_in_all => c Hc; rewrite H // mem_cat map_f.
rewrite (_ : [seq p i | i <- g_tgt g] = [seq p' i | i <- g_tgt g]); last by apply/eq_in_map.
rewrite (_ : [seq x (p t) | t <- g_tgt g] = [seq x (p' t) | t <- g_tgt g]); last by apply/eq_in_map => t T; rewrite Ht.
by rewrite (_ : [seq y (p t) | t <- g_tgt g] = [seq y (p' t) | t <- g_tgt g]); last by apply/eq_in_map => t T; rewrite Ht.
Qed.

(** ** tracking *)
(** product of matrices, the first one applied first *)
Definition prodl (ms : seq mat) : mat := foldl (fun e m => m *m e) 1%:M ms.
Lemma prodl_acc ms (f : mat) : foldl (fun e m => m *m e) f ms = prodl ms *m f.
Proof.
rewrite /prodl; elim: ms f => [|m ms IH] f /=; first by rewrite mul1mx.
by rewrite IH (IH (m *m _)) mulmx1 mulmxA.
Qed.
Lemma prodl_cons m ms : prodl (m :: ms) = prodl ms *m m.
Proof. by rewrite {1}/prodl /= prodl_acc mulmx1. Qed.
Lemma prodl_cat a b : prodl (a ++ b) = prodl b *m prodl a.
Proof. by rewrite {1}/prodl foldl_cat prodl_acc. Qed.
Lemma prodr_acc ms (f : mat) : foldl (fun e m => e *m m) f (map (@adj C _ _) ms) = f *m adj (prodl ms).
Proof.
elim: ms f => [|m ms IH] f /=; first by rewrite /prodl /= adj_1 mulmx1.
by rewrite IH prodl_cons adj_mul mulmxA.
Qed.
Lemma fold_left_foldl A B (f : A -> B -> A) l a : List.fold_left f l a = foldl f a l.
Proof. by elim: l a => [|b l IH] a //=. Qed.
Lemma List_map A B (f : A -> B) l : List.map f l = map f l.
Proof. by []. Qed.

Variables (L : Ph -> Lg) (D : pred Ph).
Hypothesis injL : {in D &, injective L}.
(** the tracked permutation [p] is the layout followed by [s] *)
Definition tracks (p : Ph -> Lg) (s : {perm Lg}) := {in D, forall q, p q = s (L q)}.

Definition op_ok (o : op) : Prop := forall p s, tracks p s ->
  exists2 s', tracks (getDD false o p).2 s' &
    [/\ (getDD false o p).1 *m Pm s = Pm s' *m sem_op L o, (getDD true o p).1 = adj (getDD false o p).1 &
        forall q, {in D, forall i, L i = q -> i \notin op_qubits o} -> s' q = s q].

Lemma sem_comp (l : seq op) : sem_op L (OComp _ _ l) = sem_ops L l.
Proof. by elim: l => [|o r /= ->]. Qed.

Lemma trace_ok (l : seq op) : List.Forall op_ok l -> forall p s, tracks p s ->
  exists2 s', tracks (trace false l p).2 s' &
    [/\ prodl (trace false l p).1 *m Pm s = Pm s' *m sem_ops L l, (trace true l p).1 = map (@adj C _ _) (trace false l p).1 &
        forall q, {in D, forall i, L i = q -> forall o, List.In o l -> i \notin op_qubits o} -> s' q = s q].
Proof.
elim=> [|o r Ho Hr IH] p s Hp /=; first by exists s => //; rewrite /prodl /= mul1mx mulmx1; split.
have [s1 H1 [E1 A1 B1]] := Ho p s Hp.
have EP := getDD_perm_inv eq_op xpkg o p.
case G1 : (getDD true o p) => [mi pi]; case G2 : (getDD false o p) => [m p'].
rewrite G1 G2 /= in H1 E1 A1 EP.
subst pi; have [s2 H2 [E2 A2 B2]] := IH p' s1 H1.
have ET := trace_perm eq_op xpkg r p'.
case T1 : (trace true r p') => [msi pfi]; case T2 : (trace false r p') => [ms pf].
rewrite T1 T2 /= in H2 E2 A2 ET *.
exists s2 => //; split.
- by rewrite prodl_cons -mulmxA E1 mulmxA E2 -mulmxA.
- by rewrite A1 A2.
- move=> q Hq; rewrite B2 ?B1 //.
  + by move=> i Hi Ei; apply: (Hq i Hi Ei); left.
  + by move=> i Hi Ei o' Ho'; apply: (Hq i Hi Ei); right.
Qed.

Lemma In_mem_comp (l : seq op) o q : List.In o l -> q \in op_qubits o -> q \in op_qubits (OComp _ _ l).
Proof.
elim: l => [|a l IH] //= [->|Ho] Hq; rewrite mem_cat ?Hq //.
by rewrite (IH Ho Hq) orbT.
Qed.
Lemma op_okP o : {subset op_qubits o <= D} -> op_ok o.
Proof.
elim/(@op_rect' Ph gate) : o => [g|a b|l IH] HD p s Hp.
- exists s => //=; split=> //.
  rewrite gmx_cov; congr (_ *m _); apply: gmx_in => q Hq; apply: Hp; exact: HD.
- have Ha : a \in D by apply: HD; rewrite inE eqxx.
  have Hb : b \in D by apply: HD; rewrite !inE eqxx orbT.
  exists (tperm (L a) (L b) * s)%g => /=.
  + move=> q Hq; rewrite /swap_at /upd permM; case: (q =P b) => [->|Nb]; first by rewrite tpermR (Hp a Ha).
    case: (q =P a) => [->|Na]; first by rewrite tpermL (Hp b Hb).
    rewrite tpermD; first exact: Hp.
    * by apply/eqP => E; apply: Na; apply: injL.
    * by apply/eqP => E; apply: Nb; apply: injL.
  + split; [by rewrite mul1mx Pm_mul mulgA tperm2 mul1g|by rewrite adj_1|].
    move=> q Hq; rewrite permM tpermD //; apply/eqP => E.
    * by move: (Hq a Ha E); rewrite inE eqxx.
    * by move: (Hq b Hb E); rewrite !inE eqxx orbT.
- have HF : List.Forall op_ok l.
    move: HD; rewrite /=; elim: IH => [|o r Ho Hr IHr] HD; first by constructor.
    constructor; first by apply: Ho => q Hq; apply: HD; rewrite mem_cat Hq.
    by apply: IHr => q Hq; apply: HD; rewrite mem_cat Hq orbT.
  have [s' H' [E A B]] := trace_ok HF Hp; exists s'; rewrite !getDD_comp; first exact: H'.
  rewrite sem_comp !fold_left_foldl [(_, _).1]/= [(_, _).1]/=; split; first exact: E.
    by rewrite A prodr_acc mul1mx.
  move=> q Hq; apply: B => i Hi Ei o Ho; move: (Hq i Hi Ei); apply: contra => Hio.
  by rewrite (In_mem_comp Ho Hio).
Qed.

(** ** restoring the output permutation *)
Section Change.
Variables (zero : Ph) (keys : seq Ph).
Hypothesis HD : D =i keys.
Local Notation chg ST act := (changePermutation Ph Lg gate mat eq_op eq_op xpkg ST act zero keys).

Lemma existsb_has (l : seq Ph) i : List.existsb (eq_op i) l = (i \in l).
Proof. by elim: l => [|a l IH] //=; rewrite inE IH. Qed.
Lemma List_findP (f : Ph -> bool) (l : seq Ph) : has f l -> exists2 k, List.find f l = Some k & (k \in l) && f k.
Proof.
elim: l => [|a l IH] //=; case Fa : (f a) => /=; first by exists a => //; rewrite inE eqxx Fa.
by case/IH => k -> /andP[Hk Hf]; exists k => //; rewrite inE Hk orbT Hf.
Qed.

Lemma chperm_ok to from s : tracks from s ->
  uniq (map fst to) -> uniq (map snd to) -> {subset map fst to <= keys} -> {subset map snd to <= map from keys} ->
  exists p ms s', [/\ forall ST (act : mat -> ST -> ST) st, chg ST act from to st = Some (p, acts act ms st), tracks p s', prodl ms *m Pm s = Pm s',
     map (@adj C _ _) ms = ms &
     [/\ forall i v, (i, v) \in to -> p i = v,
     forall q, {in D, forall i, L i = q -> i \notin map fst to} -> s q \notin map snd to -> s' q = s q &
     (forall q, q \in keys -> q \notin map fst to -> from q \notin map snd to -> p q = from q)]].
Proof.
elim: to from s => [|[i goal] r IH] from s Ht U1 U2 S1 S2 /=.
  by exists from, [::], s; rewrite /prodl /= mul1mx; split.
have Hi : i \in keys by apply: S1; rewrite inE eqxx.
have injF : {in keys &, injective from}.
  by move=> a b Ha Hb; rewrite !Ht ?HD // => /perm_inj; apply: injL; rewrite HD.
move: U1 U2 => /= /andP[Ni U1] /andP[Ng U2].
have S1' : {subset map fst r <= keys} by move=> q Hq; apply: S1; rewrite inE Hq orbT.
case: (from i =P goal) => [Eg|Neg].
  have S2' : {subset map snd r <= map from keys} by move=> q Hq; apply: S2; rewrite inE Hq orbT.
  have [p [ms [s' [E T P A [O B K]]]]] := IH from s Ht U1 U2 S1' S2'.
  exists p, ms, s'; split=> //; first by move=> ST act st; rewrite existsb_has Hi ?Eg ?eqxx; exact: E.
  split=> [j v|q Hq Hs|q Hq].
  - rewrite inE => /orP[/eqP[-> ->]|]; last exact: O.
    by rewrite K // Eg.
  - apply: B => [a Ha Ea|]; first by move: (Hq a Ha Ea); rewrite inE negb_or => /andP[].
    by move: Hs; rewrite inE negb_or => /andP[].
  by rewrite !inE !negb_or => /andP[_ H1] /andP[_ H2]; apply: K.
have /hasP[k0 Hk0 Ek0] : has (fun k => from k == goal) keys.
  have /mapP[k Hk E] : goal \in map from keys by apply: S2; rewrite inE eqxx.
  by apply/hasP; exists k => //; rewrite E.
have /List_findP[j Ej /andP[Hj /eqP Fj]] : has (fun k => from k == goal) keys by apply/hasP; exists k0.
pose from' := upd Ph Lg eq_op (upd Ph Lg eq_op from i goal) j (from i).
have Nij : i != j by apply/eqP => E; apply: Neg; rewrite E.
have F'i : from' i = goal by rewrite /from' /upd (negbTE Nij) eqxx.
have F'j : from' j = from i by rewrite /from' /upd eqxx.
have F'q q : q != i -> q != j -> from' q = from q by rewrite /from' /upd => /negbTE -> /negbTE ->.
have Ht' : tracks from' (s * tperm (from i) (from j))%g.
  move=> q Hq; rewrite permM -Ht //; case: (eqVneq q i) => [->|Ni']; first by rewrite F'i tpermL Fj.
  case: (eqVneq q j) => [->|Nj]; first by rewrite F'j tpermR.
  rewrite HD in Hq; rewrite F'q // tpermD //.
  - by apply: contra Ni' => /eqP E; apply/eqP; apply: injF => //.
  - by apply: contra Nj => /eqP E; apply/eqP; apply: injF => //.
have S2' : {subset map snd r <= map from' keys}.
  move=> v Hv; have /mapP[q Hq Ev] : v \in map from keys by apply: S2; rewrite inE Hv orbT.
  apply/mapP; case: (eqVneq q i) => [Eq|Nqi]; first by exists j => //; rewrite F'j Ev Eq.
  case: (eqVneq q j) => [Eq|Nqj]; first by exists i => //; rewrite F'i Ev Eq.
  by exists q => //; rewrite F'q.
have [p [ms [s' [E T P A [O B K]]]]] := IH from' _ Ht' U1 U2 S1' S2'.
exists p, (Pm (tperm (from i) (from j)) :: ms), s'; split=> //.
- move=> ST act st; rewrite existsb_has Hi Ej existsb_has Hj; exact: E.
- by rewrite prodl_cons -mulmxA Pm_mul P.
- by rewrite /= adj_swap A.
- split=> [a v|q Hq Hs|q Hq].
  + rewrite inE => /orP[/eqP[-> ->]|]; last exact: O.
    by rewrite K // F'i.
  + have E1 : (s * tperm (from i) (from j))%g q = s q.
      move: Hs; rewrite inE negb_or => /andP[Hg _]; rewrite permM tpermD // ?Fj 1?eq_sym //.
      rewrite Ht ?HD //; apply/eqP => /perm_inj E'.
      by move: (Hq i); rewrite HD => /(_ Hi (esym E')); rewrite inE eqxx.
    rewrite -[RHS]E1; apply: B => [a Ha Ea|]; first by move: (Hq a Ha Ea); rewrite inE negb_or => /andP[].
    by rewrite E1; move: Hs; rewrite inE negb_or => /andP[].
  rewrite !inE !negb_or => /andP[H1 H2] /andP[H3 H4].
  have Nqj : q != j by apply: contra H3 => /eqP ->; rewrite Fj.
  by rewrite K // F'q.
Qed.
End Change.
End Track.
