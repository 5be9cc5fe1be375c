(** Partial equivalence: proofs. *)
From Coq Require Import BinNums.
From mathcomp Require Import all_ssreflect all_fingroup all_algebra.
From Verif Require Import Criterion Schemes DDCheck DDSpec DDProofs DDProofs2 DDProofs3 Qubits QubitsProofs QubitsProofs2 DDSem DDSemProofs DDSemProofs4 DDSemProofs5 PartialEq.
Set Implicit Arguments.
Unset Strict Implicit.
Unset Printing Implicit Defensive.
Import GRing.Theory Num.Theory.
Local Open Scope ring_scope.

Section P.
Variables (C : numClosedFieldType) (Lg : finType).
Local Notation mat := (mat C Lg).
Local Notation vec := (vec C Lg).
Local Notation basis := (basis Lg).
Local Notation proj0 := (@proj0 C Lg).

Lemma same_out_refl G : reflexive (@same_out Lg G).
Proof. by move=> x; apply/forallP => q; rewrite eqxx implybT. Qed.
Lemma same_out_sym G : symmetric (@same_out Lg G).
Proof. by move=> x y; apply: eq_forallb => q; rewrite eq_sym. Qed.
Lemma same_out_trans G : transitive (@same_out Lg G).
Proof.
move=> y x z /forallP H1 /forallP H2; apply/forallP => q; apply/implyP => Hq.
by rewrite (eqP (implyP (H1 q) Hq)); apply: (implyP (H2 q)).
Qed.
Lemma same_out_cong G (x x' m : basis) : same_out G x x' -> same_out G x m = same_out G x' m.
Proof.
by move=> H; apply/idP/idP; [apply: same_out_trans; rewrite same_out_sym|exact: same_out_trans].
Qed.
Lemma prob_cong G (v : vec) (m m' : basis) : same_out G m m' -> prob G v m = prob G v m'.
Proof.
move=> H; apply: eq_bigl => x; by rewrite same_out_sym (same_out_cong _ H) same_out_sym.
Qed.

Lemma amp_mul (M : mat) (v : vec) x : amp (M *m v) x = \sum_(y : basis) entry M x y * amp v y.
Proof.
rewrite /amp /entry mxE (reindex (@enum_rank _)) /=; first by [].
by exists (@enum_val _ _) => i _; rewrite ?enum_rankK ?enum_valK.
Qed.
Lemma amp_ket (y x : basis) : amp (ket C y) x = (x == y)%:R.
Proof. by rewrite /amp mxE enum_rankK. Qed.
Lemma amp_mul_ket (M : mat) y x : amp (M *m ket C y) x = entry M x y.
Proof.
rewrite amp_mul (bigD1 y) //= amp_ket eqxx mulr1 big1 ?addr0 // => z Hz.
by rewrite amp_ket (negbTE Hz) mulr0.
Qed.
Lemma vecP (v w : vec) : (forall x, amp v x = amp w x) -> v = w.
Proof. by move=> H; apply/matrixP => i j; rewrite (ord1 j); move: (H (enum_val i)); rewrite /amp enum_valK. Qed.
Lemma inner_sum (v w : vec) : inner v w = \sum_(x : basis) (amp v x)^* * amp w x.
Proof.
rewrite /inner mxE (reindex (@enum_rank _)) /=; last first.
  by exists (@enum_val _ _) => i _; rewrite ?enum_rankK ?enum_valK.
by apply: eq_bigr => x _; rewrite /adj !mxE.
Qed.

(** projector onto the states that show the outcome of [m] *)
Definition Pi (G : {set Lg}) (m : basis) : mat := mx (fun x y => ((x == y) && same_out G x m)%:R).
Lemma amp_Pi G m (v : vec) x : amp (Pi G m *m v) x = (same_out G x m)%:R * amp v x.
Proof.
rewrite amp_mul (bigD1 x) //= entry_mx eqxx /= big1 ?addr0 // => y Hy.
by rewrite entry_mx eq_sym (negbTE Hy) mul0r.
Qed.
Lemma prob_inner G (v : vec) m : prob G v m = inner (Pi G m *m v) (Pi G m *m v).
Proof.
rewrite inner_sum /prob big_mkcond; apply: eq_bigr => x _; rewrite !amp_Pi.
case: ifP => _; last by rewrite !mul0r mulr0.
by rewrite !mul1r mulrC -normCK.
Qed.
Lemma entry_PiL G m (M : mat) x y : entry (Pi G m *m M) x y = (same_out G x m)%:R * entry M x y.
Proof.
rewrite entry_mul (bigD1 x) //= entry_mx eqxx /= big1 ?addr0 // => z Hz.
by rewrite entry_mx eq_sym (negbTE Hz) mul0r.
Qed.
Lemma entry_PiR G m (M : mat) x y : entry (M *m Pi G m) x y = entry M x y * (same_out G y m)%:R.
Proof.
rewrite entry_mul (bigD1 y) //= entry_mx eqxx /= big1 ?addr0 // => z Hz.
by rewrite entry_mx (negbTE Hz) mulr0.
Qed.
Lemma adj_Pi G m : adj (Pi G m) = Pi G m.
Proof. by apply: mxP => x y; rewrite entry_adj !entry_mx conjC_nat eq_sym; case: eqP => [->|]. Qed.
Lemma blocks_comm G (F : mat) m : blocks G F -> Pi G m *m F = F *m Pi G m.
Proof.
move=> H; apply: mxP => x y; rewrite entry_PiL entry_PiR mulrC.
case E : (same_out G x y); last by rewrite H ?E // !mul0r.
by rewrite (same_out_cong m E).
Qed.
Lemma blocks_adj G (F : mat) : blocks G (adj F) <-> blocks G F.
Proof.
split=> H x y N; last by rewrite entry_adj H ?conjC0 // same_out_sym.
by rewrite -[F]adjK entry_adj H ?conjC0 // same_out_sym.
Qed.

Lemma ket_unit (y : basis) : inner (ket C y) (ket C y) = 1.
Proof.
rewrite inner_sum (bigD1 y) //= amp_ket eqxx conjC1 mulr1 big1 ?addr0 // => x Nx.
by rewrite amp_ket (negbTE Nx) mulr0.
Qed.
(** ** alternating checker *)
Lemma blocks_sound A G (V1 V2 : mat) : unitary V1 -> unitary V2 -> blocks G (V1 *m proj0 A *m adj V2) -> partially_equivalent A G V1 V2.
Proof.
move=> U1 U2; set F := _ *m adj V2 => HB phi _ Hphi m.
have E1 : V1 *m phi = F *m (V2 *m phi).
  by rewrite /F -!mulmxA (mulmxA (adj V2)) (unitary_left U2) mul1mx Hphi.
have EQ : adj F *m F *m (V2 *m phi) = V2 *m phi.
  rewrite -mulmxA -E1 /F adj_mul adjK adj_mul adj_proj0 -!mulmxA (mulmxA (adj V1)) (unitary_left U1) mul1mx Hphi //.
have CF := blocks_comm m HB; have CA := blocks_comm m ((blocks_adj G F).2 HB).
rewrite !prob_inner E1 mulmxA CF -mulmxA /inner adj_mul -mulmxA (mulmxA (adj F)).
move: (V2 *m phi) EQ => psi EQ {E1}; clearbody F.
have -> // : adj F *m F *m (Pi G m *m psi) = Pi G m *m psi.
by rewrite -!mulmxA (mulmxA F) -CF -!mulmxA (mulmxA (adj F)) -CA -mulmxA (mulmxA (adj F)) EQ.
Qed.
Lemma prob_ket G (y m : basis) : prob G (ket C y) m = (same_out G y m)%:R.
Proof.
rewrite /prob; case E : (same_out G y m).
- rewrite (bigD1 y) //= amp_ket eqxx normr1 expr1n big1 ?addr0 // => x /andP[_ N].
  by rewrite amp_ket (negbTE N) normr0 expr0n.
- apply: big1 => x Hx; rewrite amp_ket; case: eqP => [Ex|_]; last by rewrite normr0 expr0n.
  by rewrite Ex E in Hx.
Qed.
Lemma prob0 G (v : vec) m : prob G v m = 0 -> forall x, same_out G x m -> amp v x = 0.
Proof.
move=> H x Hx; have P0 y : same_out G y m -> 0 <= `|amp v y| ^+ 2 by rewrite exprn_ge0.
have /eqP := @psumr_eq0P _ _ _ _ P0 H x Hx; by rewrite expf_eq0 /= normr_eq0 => /eqP.
Qed.
Lemma proj0_ket A y : zeros A y -> proj0 A *m ket C y = ket C y.
Proof.
move=> H; apply: vecP => x; rewrite amp_mul_ket entry_proj0 amp_ket; case: eqP => [->|] //=.
by rewrite -/(zeros A y) H.
Qed.
Lemma alone_complete A G (V1 V2 : mat) : unitary V1 -> unitary V2 -> V2 *m proj0 A = proj0 A *m V2 ->
  partially_equivalent A G V1 V2 -> blocks G (V1 *m proj0 A *m adj V2).
Proof.
move=> U1 U2 HC HP x y N.
have HC' : proj0 A *m adj V2 = adj V2 *m proj0 A.
  by rewrite -[LHS]adjK adj_mul adjK adj_proj0 HC adj_mul adj_proj0.
rewrite -mulmxA HC' mulmxA entry_projR.
case Z : [forall q in A, ~~ y q]; last by rewrite mulr0.
have Hphi : proj0 A *m (adj V2 *m ket C y) = adj V2 *m ket C y by rewrite mulmxA HC' -mulmxA proj0_ket.
have Hun : inner (adj V2 *m ket C y) (adj V2 *m ket C y) = 1 by rewrite inner_unitary ?ket_unit //; exact: unitary_adj.
have := HP _ Hun Hphi x; rewrite [V2 *m _]mulmxA U2 mul1mx prob_ket.
rewrite same_out_sym (negbTE N) => /prob0 /(_ x (same_out_refl G x)).
by rewrite mulmxA amp_mul_ket => ->; rewrite mul0r.
Qed.
Lemma partially_equivalent_sym A G (V1 V2 : mat) : partially_equivalent A G V1 V2 -> partially_equivalent A G V2 V1.
Proof. by move=> H phi Hu Hphi m; rewrite H. Qed.
Lemma alone_complete1 A G (V1 V2 : mat) : unitary V1 -> unitary V2 -> V1 *m proj0 A = proj0 A *m V1 ->
  partially_equivalent A G V1 V2 -> blocks G (V1 *m proj0 A *m adj V2).
Proof.
move=> U1 U2 HC HP; apply/blocks_adj; rewrite adj_mul adjK adj_mul adj_proj0 mulmxA.
by apply: alone_complete => //; exact: partially_equivalent_sym.
Qed.
Lemma pe_on_basis A G (V1 V2 : mat) : partially_equivalent A G V1 V2 -> same_on_basis A G V1 V2.
Proof. by move=> H y Hy m; apply: H; [exact: ket_unit|exact: proj0_ket]. Qed.

(** ** the reduced matrices *)
Lemma prob_col G (M : mat) y m : prob G (M *m ket C y) m = \sum_(x | same_out G x m) `|entry M x y| ^+ 2.
Proof. by apply: eq_bigr => x _; rewrite amp_mul_ket. Qed.
Lemma prob_ge0 G (v : vec) m : 0 <= prob G v m.
Proof. by apply: sumr_ge0 => x _; rewrite exprn_ge0. Qed.
Lemma entry_reduce G (M : mat) x y : entry (reduce_mx G M) x y = if zeros G x then sqrtC (prob G (M *m ket C y) x) else 0.
Proof. by rewrite entry_mx prob_col. Qed.
Lemma amp_reduce G (v : vec) x : amp (reduce_vec G v) x = if zeros G x then sqrtC (prob G v x) else 0.
Proof. by rewrite /amp mxE enum_rankK. Qed.
(** the representative with zeros on the garbage *)
Definition rep (G : {set Lg}) (m : basis) : basis := [ffun q => if q \in G then false else m q].
Lemma rep_zeros G m : zeros G (rep G m).
Proof. by apply/forallP => q; apply/implyP => Hq; rewrite ffunE Hq. Qed.
Lemma rep_same G m : same_out G (rep G m) m.
Proof. by apply/forallP => q; apply/implyP => Hq; rewrite ffunE (negbTE Hq). Qed.
Lemma rep_cong G m m' : same_out G m m' -> rep G m = rep G m'.
Proof.
move/forallP => H; apply/ffunP => q; rewrite !ffunE; case: ifP => // Hq.
by move: (H q); rewrite Hq => /eqP.
Qed.
Lemma rep_id G m : zeros G m -> rep G m = m.
Proof. by move/forallP => H; apply/ffunP => q; rewrite ffunE; case: ifP => // Hq; move: (H q); rewrite Hq => /negbTE. Qed.
Lemma reduce_eq_prob G (v w : vec) : reduce_vec G v = reduce_vec G w <-> forall m, prob G v m = prob G w m.
Proof.
split=> [E m|H]; last by apply: vecP => x; rewrite !amp_reduce H.
rewrite -(prob_cong v (rep_same G m)) -(prob_cong w (rep_same G m)).
have := congr1 (fun u => amp u (rep G m)) E; rewrite !amp_reduce rep_zeros => E1.
by rewrite -[LHS]sqrtCK E1 sqrtCK.
Qed.
Lemma not_all_prob G (v w : vec) : ~ (forall m, prob G v m = prob G w m) -> exists m, prob G v m <> prob G w m.
Proof.
move=> H; case E : [forall m, prob G v m == prob G w m].
  by case: H => m; apply/eqP; move/forallP: E.
by move/negbT: E; rewrite negb_forall => /existsP[m /eqP N]; exists m.
Qed.
Lemma sum_zeros G (F : basis -> C) :
  \sum_(x | zeros G x) \sum_(x' | same_out G x' x) F x' = \sum_x F x.
Proof.
rewrite [RHS](partition_big (rep G) (zeros G)) /=; last by move=> x _; exact: rep_zeros.
apply: eq_bigr => x Hx; apply: eq_bigl => x'; apply/idP/eqP => [/rep_cong ->|<-]; first exact: rep_id.
by rewrite same_out_sym rep_same.
Qed.
Lemma reduce_unit G (v : vec) : inner (reduce_vec G v) (reduce_vec G v) = inner v v.
Proof.
rewrite !inner_sum -[RHS](sum_zeros G) [RHS]big_mkcond /=; apply: eq_bigr => x _; rewrite amp_reduce.
case: ifP => _; last by rewrite mulr0.
have R : 0 <= sqrtC (prob G v x) by rewrite sqrtC_ge0 prob_ge0.
rewrite mulrC -normCK (ger0_norm R) sqrtCK.
by apply: eq_bigr => x' _; rewrite mulrC -normCK.
Qed.
Lemma col_reduce G (M : mat) y : reduce_mx G M *m ket C y = reduce_vec G (M *m ket C y).
Proof. by apply: vecP => x; rewrite amp_mul_ket entry_reduce amp_reduce. Qed.
Lemma matP (M N : mat) : (forall y, M *m ket C y = N *m ket C y) -> M = N.
Proof. by move=> H; apply: mxP => x y; rewrite -!amp_mul_ket H. Qed.

Section Con.
Variables (V1 V2 : mat) (A G : {set Lg}).
Hypotheses (U1 : unitary V1) (U2 : unitary V2).
Let E := reduce_mx G (V1 *m proj0 A).
Let F := reduce_mx G (V2 *m proj0 A).
Lemma PA_ket y : ~~ zeros A y -> proj0 A *m ket C y = 0.
Proof.
move=> H; apply: vecP => x; rewrite amp_mul_ket entry_proj0; case: eqP => [->|] /=; last by rewrite /amp mxE.
by rewrite (_ : [forall _ in _, _] = false) ?/amp ?mxE //; exact: negbTE.
Qed.
Lemma reduced_eq : E = F <-> same_on_basis A G V1 V2.
Proof.
split=> [H y Hy m|H].
- have := congr1 (fun M => M *m ket C y) H; rewrite !col_reduce -!mulmxA (proj0_ket Hy) => /reduce_eq_prob; exact.
- apply: matP => y; rewrite !col_reduce -!mulmxA; case Hy : (zeros A y).
    by rewrite (proj0_ket Hy); apply/reduce_eq_prob => m; apply: H.
  by rewrite PA_ket ?Hy // !mulmx0.
Qed.
Lemma col_unit (V : mat) y : unitary V -> zeros A y ->
  \sum_x `|entry (reduce_mx G (V *m proj0 A)) x y| ^+ 2 = 1.
Proof.
move=> U Hy; have : inner (reduce_vec G (V *m proj0 A *m ket C y)) (reduce_vec G (V *m proj0 A *m ket C y)) = 1.
  by rewrite reduce_unit -mulmxA proj0_ket // inner_unitary // ket_unit.
rewrite inner_sum => H; rewrite -[RHS]H; apply: eq_bigr => x _; by rewrite -col_reduce amp_mul_ket mulrC -normCK.
Qed.
Lemma col_zero (V : mat) y x : ~~ zeros A y -> entry (reduce_mx G (V *m proj0 A)) x y = 0.
Proof.
move=> Hy; rewrite entry_reduce -mulmxA PA_ket // mulmx0; case: ifP => // _.
rewrite [prob _ _ _](_ : _ = 0) ?sqrtC0 //; apply: big1 => z _; by rewrite /amp mxE normr0 expr0n.
Qed.
Lemma reduce_ge0 (V : mat) x y : 0 <= entry (reduce_mx G V) x y.
Proof. by rewrite entry_reduce; case: ifP => // _; rewrite sqrtC_ge0 prob_ge0. Qed.
Lemma zeros_basis0 : zeros A (basis0 Lg).
Proof. by apply/forallP => q; rewrite ffunE implybT. Qed.
Lemma multiple_eq w : E = w *: F -> E = F.
Proof.
move=> H; have HE := col_unit U1 zeros_basis0; have HF := col_unit U2 zeros_basis0.
have Hw : `|w| = 1.
  have : `|w| ^+ 2 = 1.
    rewrite -[RHS]HE -/E H -[LHS]mulr1 -[X in _ * X]HF mulr_sumr; apply: eq_bigr => x _.
    by rewrite entry_scale normrM exprMn.
  by move/eqP; rewrite sqrp_eq1 ?normr_ge0 // => /eqP.
have [x Nx] : exists x, entry F x (basis0 Lg) != 0.
  apply/existsP; apply: contraT => /existsPn HN; move: HF; rewrite big1 => [/eqP|x _]; first by rewrite eq_sym oner_eq0.
  by move: (HN x); rewrite negbK => /eqP ->; rewrite normr0 expr0n.
have Px : 0 < entry F x (basis0 Lg) by rewrite lt0r Nx reduce_ge0.
have : 0 <= w.
  have := reduce_ge0 (V1 *m proj0 A) x (basis0 Lg); by rewrite -/E H entry_scale pmulr_lge0.
by move/normr_idP => H1; move: H; rewrite -H1 Hw scale1r.
Qed.
(** a column of non-negative numbers with sum of squares 1 *)
Lemma diag_unit (M : mat) : (forall x y, x != y -> entry M x y = 0) ->
  (forall x y, 0 <= entry M x y) -> (forall y, zeros A y -> \sum_x `|entry M x y| ^+ 2 = 1) ->
  (forall y x, ~~ zeros A y -> entry M x y = 0) -> M = proj0 A.
Proof.
move=> HD HP HU HZ; apply: mxP => x y; rewrite entry_proj0; case: (eqVneq x y) => [->|N] /=; last exact: HD.
rewrite -/(zeros A y); case Hy : (zeros A y); last by rewrite HZ ?Hy.
move: (HU y Hy); rewrite (bigD1 y) //= big1 => [|z Nz]; last by rewrite HD // normr0 expr0n.
by rewrite addr0 => /eqP; rewrite sqrp_eq1 ?normr_ge0 // ger0_norm // => /eqP ->.
Qed.
Lemma ortho_eq : (forall x z, x != z -> entry (E *m adj F) x z = 0) -> E = F.
Proof.
move=> H.
have HO x z y : x != z -> entry E x y = 0 \/ entry F z y = 0.
  move=> N; have := H x z N; rewrite entry_mul => HS.
  have Pz t : true -> 0 <= entry E x t * entry (adj F) t z.
    by move=> _; rewrite entry_adj mulr_ge0 ?conjC_ge0 ?reduce_ge0.
  have /eqP := @psumr_eq0P _ _ _ _ Pz HS y isT; rewrite entry_adj mulf_eq0 conjC_eq0 => /orP[]/eqP; [by left|by right].
apply: mxP => x y; case Hy : (zeros A y); last by rewrite !col_zero ?Hy.
have HE := col_unit U1 Hy; have HF := col_unit U2 Hy.
have [u Nu] : exists x, entry E x y != 0.
  apply/existsP; apply: contraT => /existsPn HN; move: HE; rewrite big1 => [/eqP|z _]; first by rewrite eq_sym oner_eq0.
  by move: (HN z); rewrite negbK => /eqP ->; rewrite normr0 expr0n.
have F0 z : z != u -> entry F z y = 0.
  by rewrite eq_sym => N; case: (HO u z y N) => // H0; rewrite H0 eqxx in Nu.
have one (M : mat) : (forall x y, 0 <= entry M x y) -> \sum_x `|entry M x y| ^+ 2 = 1 -> (forall z, z != u -> entry M z y = 0) -> entry M u y = 1.
  move=> HP HS HZ; move: HS; rewrite (bigD1 u) //= big1 => [|z Nz]; last by rewrite HZ // normr0 expr0n.
  by rewrite addr0 => /eqP; rewrite sqrp_eq1 ?normr_ge0 // ger0_norm // => /eqP.
have Fu := one F (@reduce_ge0 _) HF F0.
have E0 z : z != u -> entry E z y = 0.
  by move=> N; case: (HO z u y N) => // H0; move: (oner_eq0 C); rewrite -Fu H0 eqxx.
have Eu := one E (@reduce_ge0 _) HE E0.
by case: (eqVneq x u) => [->|N]; [rewrite Eu Fu|rewrite E0 // F0].
Qed.

Variables (isClose : mat -> bool) (sameNode sameWeight : mat -> mat -> bool).
Hypotheses (hc : closeness_test isClose) (hn : @same_node_test C [lmodType C of mat] sameNode)
           (hw : @same_weight_test C [lmodType C of mat] sameNode sameWeight).
Lemma con_partial_exact :
  con_check isClose sameNode sameWeight (E, F) = if E == F then Equivalent else NotEquivalent.
Proof.
rewrite /con_check; case HN : (sameNode E F).
  have [w _ /multiple_eq Heq] := (hn _ _).1 HN.
  by rewrite (hw HN) Heq eqxx.
have NE : E != F.
  apply/eqP => Heq; have : sameNode E F by apply/hn; exists 1; rewrite ?oner_eq0 // scale1r.
  by rewrite HN.
rewrite (negbTE NE).
have -> // : (if isClose E || isClose F then isClose E && isClose F else isClose (E *m adj F)) = false.
apply/negP; case: ifP => _; last first.
  by move/hc.1 => -[HD _ _]; move/eqP: NE; apply; exact: ortho_eq.
case/andP => /hc.1[D1 _ _] /hc.1[D2 _ _]; move/eqP: NE; apply.
have -> : E = proj0 A.
  by apply: diag_unit => //; [exact: reduce_ge0|move=> y Hy; exact: col_unit|move=> y x; exact: col_zero].
by symmetry; apply: diag_unit => //; [exact: reduce_ge0|move=> y Hy; exact: col_unit|move=> y x; exact: col_zero].
Qed.
Lemma con_partial_verdict :
  (con_check isClose sameNode sameWeight (E, F) = Equivalent <-> same_on_basis A G V1 V2) /\
  (con_check isClose sameNode sameWeight (E, F) = NotEquivalent <-> ~ same_on_basis A G V1 V2).
Proof.
rewrite con_partial_exact -reduced_eq; case: eqP => H; split; split=> //; by case/(_ H).
Qed.
End Con.
End P.

(** ** the runs of the construction and simulation checker with partial equivalence *)
Section Q.
Variables (C : numClosedFieldType) (Lg : finType) (Ph : eqType).
Local Notation mat := (mat C Lg).
Local Notation vec := (vec C Lg).
Local Notation gate := (gate C Ph).
Local Notation op := (op Ph gate).
Local Notation circuit := (circuit Ph Lg gate).
Local Notation xpkg := (@xpkg C Lg Ph).
Local Notation trace := (trace eq_op xpkg).
Local Notation ops := (c_ops Ph Lg gate).
Local Notation layout := (c_layout Ph Lg gate).
Variables (geqb : gate -> gate -> bool) (view : op -> opview) (zero : Ph).
Variables (c1 c2 : circuit) (V1 V2 : mat) (ms1 ms2 : seq mat).
Hypotheses (K1 : computes zero c1 V1 ms1) (K2 : computes zero c2 V2 ms2).

Section Base.
Variables (T : Type) (mul : mat -> T -> T) (sch : appscheme).
Hypotheses (hs : scheme_for c1 c2 sch) (nl : is_lookahead sch = false).
Variables (ra1 ra2 rg1 rg2 : T -> T) (r1 r2 g1 g2 : T * T -> T * T).
Hypotheses (hr1 : forall s, r1 s = (ra1 s.1, s.2)) (hr2 : forall s, r2 s = (s.1, ra2 s.2)).
Hypotheses (hg1 : forall s, g1 s = (rg1 s.1, s.2)) (hg2 : forall s, g2 s = (s.1, rg2 s.2)).
Variables (check : T * T -> criterion) (old : criterion) (a b : T).
Let k : chk mat (T * T) := mkChk mat (T * T) (fun m s => (mul m s.1, s.2)) (fun m s => (s.1, mul m s.2)) false (fun _ => false) (fun _ => N0) false.

Lemma base_never_partial : exists l1 l2 y, [/\ prodl l1 = V1, prodl l2 = V2 &
  run Ph Lg gate mat eq_op eq_op xpkg (@g_swap C Ph) geqb view (T * T) k sch never zero c1 c2
    r1 r2 g1 g2 true check (a, b) old
    = RVerdict _ _ _ _ _ (check (rg1 (ra1 (acts mul l1 a)), rg2 (ra2 (acts mul l2 b)))) y].
Proof.
have comm : sides_commute k by [].
have hid : is_lookahead sch = true -> k_inv2 _ _ k = true /\ no_hidden_swap (ops c1) /\ no_hidden_swap (ops c2) by rewrite nl.
have skips : is_lookahead sch = false -> skips_ok eq_op xpkg (@g_swap C Ph) k geqb c1 c2 by [].
have mono : monotone never by [].
have := @bound_ok Ph Lg gate mat _ eq_op xpkg (@g_swap C Ph) geqb view k sch comm c1 c2 skips hid hs never (a, b) mono.
rewrite /run; case E : (execute _ _ _ _ _ _ _ _ _ _ _ _ _ _ _) => [x|] // _.
have := @finish_never Ph Lg gate mat _ eq_op xpkg (@g_swap C Ph) geqb view k sch comm c1 c2 skips hid hs _ _ _ (initial_inv _ _ _ _ _ _ _ _) E.
cbv zeta; set z := finish _ _ _ _ _ _ _ _ _ _ _; rewrite initial_total => -[_ [_ [P1 P2 S]]].
cbn [k_act1 k_act2 k_inv2 k] in S, P2; rewrite acts_fst acts_snd /= in S.
have [[p1 H1] G1 A1 _] := K1; have [[p2 H2] G2 A2 T2] := K2.
rewrite /postprocess; cbn [k_alt k]; rewrite /base_postprocess; cbn [isDone never]; rewrite /postprocessTask /chperm1; cbn [x_t1 x_s]; rewrite P1 S.
set st1 := (_, _) : T * T; rewrite H1.
cbn [isDone never on_state x_t1 x_t2 x_s x_c1 x_c2 x_tick]; rewrite /chperm2; cbn [x_t2 x_s]; rewrite P2.
rewrite hr1 hg1; set st2 := (_, _) : T * T; rewrite H2.
cbn [isDone never on_state x_t1 x_t2 x_s x_c1 x_c2 x_tick]; rewrite hr2 hg2.
set r := acts _ ms2 _.
have HS : (r.1, rg2 (ra2 r.2)) = (rg1 (ra1 (acts mul ((trace false (ops c1) (layout c1)).1 ++ ms1) a)), rg2 (ra2 (acts mul ((trace false (ops c2) (layout c2)).1 ++ ms2) b))).
  by rewrite /r /k /= acts_snd /st2 /= acts_fst /st1 /= !acts_app.
exists ((trace false (ops c1) (layout c1)).1 ++ ms1), ((trace false (ops c2) (layout c2)).1 ++ ms2); eexists.
split; [by rewrite prodl_cat G1|by rewrite prodl_cat G2|rewrite -HS; reflexivity].
Qed.
End Base.

Lemma con_partial_never sch A1 A2 G1 G2 check old : scheme_for c1 c2 sch -> is_lookahead sch = false ->
  exists y, con_run_partial geqb view zero sch never c1 c2 A1 A2 G1 G2 check old
    = RVerdict _ _ _ _ _ (check (reduce_mx G1 (V1 *m proj0 C A1), reduce_mx G2 (V2 *m proj0 C A2))) y.
Proof.
move=> hs nl.
have [l1 [l2 [y [E1 E2 E]]]] := @base_never_partial mat (fun m f => m *m f) sch hs nl
  (fun f => f *m proj0 C A1) (fun f => f *m proj0 C A2) (@reduce_mx C Lg G1) (@reduce_mx C Lg G2) _ _ _ _
  (fun _ => erefl) (fun _ => erefl) (fun _ => erefl) (fun _ => erefl) check old (proj0 C A1) (proj0 C A2).
by exists y; move: E; rewrite !acts_left E1 E2 -!mulmxA !proj0_idem.
Qed.
Lemma sim_partial_never sch phi G1 G2 check old : scheme_for c1 c2 sch -> is_lookahead sch = false ->
  exists y, sim_run_partial geqb view zero sch never c1 c2 phi G1 G2 check old
    = RVerdict _ _ _ _ _ (check (reduce_vec G1 (V1 *m phi), reduce_vec G2 (V2 *m phi))) y.
Proof.
move=> hs nl.
have hid1 (s : vec * vec) : s = (id s.1, s.2) by case: s.
have [l1 [l2 [y [E1 E2 E]]]] := @base_never_partial vec (fun m f => m *m f) sch hs nl id id (@reduce_vec C Lg G1) (@reduce_vec C Lg G2)
  id id _ _ hid1 hid1 (fun _ => erefl) (fun _ => erefl) check old phi phi.
by exists y; move: E; rewrite !acts_leftv E1 E2.
Qed.
End Q.
