(** Proofs for C88: what the verdict says about the operators. *)
From Coq Require Import BinNums NArith Arith List Lia.
From mathcomp Require Import all_ssreflect all_fingroup all_algebra.
From Verif Require Import Criterion Config SeqFlow SeqSpec ParFlow ParSpec StateGen StateGenSpec StateGenProofs2 Perm PermSpec Prep PrepSpec Passes Schemes DDCheck DDSpec Qubits QubitsProofs DDSem
  DDSemProofs2 DDSemProofs5 DDMain DDFlow DDFlowProofs VerdictSpec PrepSem Stim StimSpec StimProofs StimSem StimSemProofs StimDemoProofs ExhaustSpec ExhaustProofs ExhaustSem.
Set Implicit Arguments.
Unset Strict Implicit.
Unset Printing Implicit Defensive.
Import GRing.Theory Num.Theory.
Local Open Scope ring_scope.

Section V.
Variables (C : numClosedFieldType) (n : nat).
Local Notation Lg := [finType of 'I_n].
Local Notation vec := (vec C Lg).
Local Notation mat := (mat C Lg).

Lemma inner_ge0 (u : vec) : 0 <= inner u u.
Proof. by rewrite inner_sum; apply: sumr_ge0 => x _; rewrite mulrC -normCK exprn_ge0 ?normr_ge0. Qed.
Lemma dist_Re (u v : vec) : inner u u = 1 -> inner v v = 1 -> inner (u - v) (u - v) = (1 - 'Re (inner u v)) *+ 2.
Proof.
move=> uu uv.
have R2 : 'Re (inner u v) *+ 2 = inner u v + (inner u v)^* by rewrite ReE -mulr_natr divfK ?pnatr_eq0.
rewrite inner_subl !inner_subr uu uv (inner_conj u v) mulrnBl R2 opprB opprD [1 *+ 2]mulr2n.
by rewrite -!addrA; congr (1 + _); rewrite [1 + (_ - _)]addrCA [1 - _]addrC.
Qed.
Lemma Re_close (u v : vec) eps : inner u u = 1 -> inner v v = 1 -> (`|'Re (inner u v) - 1| < eps) = (inner (u - v) (u - v) < eps *+ 2).
Proof.
move=> uu uv; have := inner_ge0 (u - v); rewrite (dist_Re uu uv) pmulrn_lge0 // ltr_pmuln2r // => P.
by rewrite distrC ger0_norm.
Qed.
(** the comparison of a simulation refutes iff the results are not close *)
Lemma check_close sn sw eps (u v : vec) : 0 < eps -> @same_node_test C [lmodType C of vec] sn -> inner u u = 1 -> inner v v = 1 ->
  sim_check sn sw eps (u, v) <> NotEquivalent <-> close eps u v.
Proof.
move=> e0 hn uu uv; rewrite /sim_check /close -(Re_close eps uu uv); case HN: (sn u v).
  have [w _ E] := (hn _ _).1 HN; split=> [_|_]; last by case: ifP.
  by right; rewrite (fidelity uu uv E) expr1n subrr normr0.
rewrite -normC2_Re_Im; case: ifP => [H|/negbT H]; first by split=> // _; left.
case: ifP => [H'|/negbT H']; first by split=> // _; right.
by split=> // -[].
Qed.
Lemma close_dec eps (u v : vec) : close eps u v \/ ~ close eps u v.
Proof.
rewrite /close; case: (inner _ _ < _); first by left; left.
by case: (_ < eps); [left; right|right; case].
Qed.
Lemma diag_ket cl l (D : mat) : diagonal D -> D *m @ket C n cl (SBits l) = entry D (bits n l) (bits n l) *: @ket C n cl (SBits l).
Proof.
move=> dD; apply: vecP => x; rewrite mul_ket mxE ket_bits; case: eqP => [->|/eqP N]; first by rewrite mulr1.
by rewrite dD // mulr0.
Qed.
(** the vector of a computational stimulus has length 1 *)
Lemma ket_unit cl l : inner (@ket C n cl (SBits l)) (@ket C n cl (SBits l)) = 1.
Proof. exact: product_unit. Qed.
Lemma classical_ket cl l (V : mat) f : (forall x y, entry V x y = (x == f y)%:R) ->
  V *m @ket C n cl (SBits l) = @ket C n cl (SBits (codom (f (bits n l)))).
Proof.
move=> H; apply: vecP => x; rewrite mul_ket ket_bits H; congr ((_ == _)%:R).
apply/ffunP => q; rewrite ffunE; rewrite -{1}(enum_rankK q) /= .
by rewrite (nth_map q) ?size_enum_ord // nth_ord_enum enum_rankK.
Qed.
Lemma classical_close cl eps l l' : eps <= 1 -> close eps (@ket C n cl (SBits l)) (@ket C n cl (SBits l')) -> bits n l = bits n l'.
Proof.
move=> e1; case: (eqVneq (bits n l) (bits n l')) => // N.
have I0 : inner (@ket C n cl (SBits l)) (@ket C n cl (SBits l')) = 0 by rewrite inner_ket ket_bits eq_sym (negbTE N) conjC0.
case; first rewrite (dist_Re (ket_unit cl l) (ket_unit cl l')) I0 raddf0 subr0 ltr_pmuln2r //.
  by move=> H; have := Order.POrderTheory.lt_le_trans H e1; rewrite Order.POrderTheory.ltxx.
by rewrite I0 normr0 expr0n /= sub0r normrN normr1 => H; have := Order.POrderTheory.lt_le_trans H e1; rewrite Order.POrderTheory.ltxx.
Qed.
End V.

Section W.
Variables (C : numClosedFieldType) (m : nat).
Local Notation Lg := [finType of 'I_m.+1].
Local Notation gate := (gate C nat_eqType).
Local Notation op := (op nat gate).
Local Notation circ := (circ op).
Local Notation mat := (mat C Lg).
Local Notation vec := (vec C Lg).
Variables (c1 c2 : circ) (zero : nat).
Local Notation p1 := (as_circuit m c1).
Local Notation p2 := (as_circuit m c2).
Hypotheses (W1 : wf_circuit p1) (W2 : wf_circuit p2) (U1 : unitary_circuit p1) (U2 : unitary_circuit p2).
Local Notation n := (Nat.max (q_n c1) (q_n c2)).
Local Notation k := (primary c1).

(** the verdict of a simulation is about the images of its stimulus *)
Lemma sim_exact : exists V1 V2, [/\ realises p1 V1, realises p2 V2, unitary V1 & unitary V2] /\
  forall (q : package C Lg nat_eqType) (s : schemes) (A1 A2 : {set Lg}) (eps : C), @same_node_test C [lmodType C of vec] (q_nodeV q) -> good_schemes q p1 p2 s -> 0 < eps ->
  forall (Stim Gen : Type) (stim : Stim -> vec) (e : env Stim Gen), describes q s zero p1 p2 A1 A2 eps stim e ->
  forall t, inner (stim t) (stim t) = 1 -> e_sim e t <> SNotEquivalent <-> close eps (V1 *m stim t) (V2 *m stim t).
Proof.
have [V1 [V2 [R1 R2 H]]] := runs_compute zero W1 W2 U1.
have UV1 := unitary_realises W1 U1 R1; have UV2 := unitary_realises W2 U2 R2.
exists V1, V2; split=> // q s A1 A2 eps hn hs e0 Stim Gen stim e [_ _ _ Ys] t ut.
have [[_ _ hsm] [_ _ nls]] := hs.
have [_ _ HS] := H (q_equals q) (q_view q) (s_sim s) NoInformation hsm.
have [y Y _] := HS (stim t) (sim_check (q_nodeV q) (q_weightV q) eps) nls.
have [ys Yst] := Ys t; have E := verdict_injv (etrans (esym Yst) Y).
have u1 : inner (V1 *m stim t) (V1 *m stim t) = 1 by rewrite inner_unitary.
have u2 : inner (V2 *m stim t) (V2 *m stim t) = 1 by rewrite inner_unitary.
rewrite -(check_close (q_weightV q) e0 hn u1 u2) -E; by case: (e_sim e t); split.
Qed.

Lemma exhaustive : exists V1 V2, [/\ realises p1 V1, realises p2 V2, unitary V1 & unitary V2] /\
  forall (q : package C Lg nat_eqType) (s : schemes) (A1 A2 : {set Lg}) (eps : C), @same_node_test C [lmodType C of vec] (q_nodeV q) -> good_schemes q p1 p2 s -> 0 < eps ->
  forall (MT : Type) (word : MT -> N * MT) (unif : N -> MT -> N * MT) (e : env stimulus (gen MT)) (clifford : stab -> vec), fair unif -> in_range unif ->
  stimuli_of word unif c1 c2 ComputationalBasis e -> describes q s zero p1 p2 A1 A2 eps (ket clifford) e ->
  forall fuel pf ma, (k <= 63)%coq_nat -> g_used (m_gen ma) = nil ->
  choose_flow e (m_cfg ma) = FSequential -> never_fires e (m_cfg ma) -> no_exceptions e (m_cfg ma) -> only_simulations (m_cfg ma) ->
  maxSims (sim (m_cfg ma)) = (2 ^ N.of_nat k)%num -> r_performed (m_res ma) = 0%num -> N.lt (2 ^ N.of_nat k)%num (N.of_nat fuel) ->
  exists ma', SeqFlow.run fuel pf e ma = Returned ma' /\
    [/\ r_eq (m_res ma') = ProbablyEquivalent <-> forall l, basis_input n k l -> close eps (V1 *m ket clifford (SBits l)) (V2 *m ket clifford (SBits l)),
        r_eq (m_res ma') = NotEquivalent <-> exists l, basis_input n k l /\ ~ close eps (V1 *m ket clifford (SBits l)) (V2 *m ket clifford (SBits l)) &
        r_eq (m_res ma') = ProbablyEquivalent \/ r_eq (m_res ma') = NotEquivalent].
Proof.
have [V1 [V2 [R H]]] := sim_exact; exists V1, V2; split=> // q s A1 A2 eps hn hs e0 MT word unif e cl F IR st hd fuel pf ma h1 h2 h3 h4 h5 h6 h7 h8 h9.
have HE l := H q s A1 A2 eps hn hs e0 _ _ _ _ hd (SBits l) (ket_unit cl l).
have [ma' [Rm X]] := @exhaustive_run _ _ word unif F IR c1 c2 e st fuel pf ma h1 h2 h3 h4 h5 h6 h7 h8 h9.
exists ma'; split=> //; case: X => [[-> [l [B E]]]|[-> [_ N]]].
- have NC : ~ close eps (V1 *m ket cl (SBits l)) (V2 *m ket cl (SBits l)) by move/HE; rewrite E.
  by split; [split=> // /(_ l B)|split=> // _; exists l|right].
- have NC l : basis_input n k l -> close eps (V1 *m ket cl (SBits l)) (V2 *m ket cl (SBits l)).
    by move=> B; apply/HE => E; apply: (N l).
  by split; [split|split=> // -[l [/NC]]|left].
Qed.

Lemma exhaustive_par : exists V1 V2, [/\ realises p1 V1, realises p2 V2, unitary V1 & unitary V2] /\
  forall (q : package C Lg nat_eqType) (s : schemes) (A1 A2 : {set Lg}) (eps : C), @same_node_test C [lmodType C of vec] (q_nodeV q) -> good_schemes q p1 p2 s -> 0 < eps ->
  forall (MT : Type) (word : MT -> N * MT) (unif : N -> MT -> N * MT) (e : env stimulus (gen MT)) (clifford : stab -> vec), in_range unif ->
  stimuli_of word unif c1 c2 ComputationalBasis e -> describes q s zero p1 p2 A1 A2 eps (ket clifford) e ->
  forall c g pp x, (k <= 63)%coq_nat -> g_used g = nil -> only_simulations c ->
  maxSims (sim c) = (2 ^ N.of_nat k)%num -> hasTimeout c = false -> par_returned e c g pp x ->
    [/\ r_eq (p_res x) = ProbablyEquivalent <-> forall l, basis_input n k l -> close eps (V1 *m ket clifford (SBits l)) (V2 *m ket clifford (SBits l)),
        r_eq (p_res x) = NotEquivalent <-> exists l, basis_input n k l /\ ~ close eps (V1 *m ket clifford (SBits l)) (V2 *m ket clifford (SBits l)) &
        r_eq (p_res x) = ProbablyEquivalent \/ r_eq (p_res x) = NotEquivalent].
Proof.
have [V1 [V2 [R H]]] := sim_exact; exists V1, V2; split=> // q s A1 A2 eps hn hs e0 MT word unif e cl IR st hd c g pp x h1 h2 h3 h4 h5 h6.
have HE l := H q s A1 A2 eps hn hs e0 _ _ _ _ hd (SBits l) (ket_unit cl l).
case: (@exhaustive_parallel _ _ word unif IR c1 c2 e st c g pp x h1 h2 h3 h4 h5 h6) => [[-> [l [B E]]]|[-> [_ N]]].
- have NC : ~ close eps (V1 *m ket cl (SBits l)) (V2 *m ket cl (SBits l)) by move/HE; rewrite E.
  by split; [split=> // /(_ l B)|split=> // _; exists l|right].
- have NC l : basis_input n k l -> close eps (V1 *m ket cl (SBits l)) (V2 *m ket cl (SBits l)).
    by move=> B; apply/HE => E; apply: (N l).
  by split; [split|split=> // -[l [/NC]]|left].
Qed.

(** every basis state with zeros from [k] on is the one of a list of bits *)
Lemma bits_of (x : basis Lg) : Nat.max (q_n c1) (q_n c2) = m.+1 -> (forall q : Lg, (k <= q)%N -> x q = false) -> exists l, basis_input n k l /\ bits m.+1 l = x.
Proof.
move=> En Z; exists [seq x i | i <- enum 'I_m.+1]; split.
  split; first by rewrite En -[length _]/(size _) size_map size_enum_ord.
  move=> i /leP ki; rewrite nth_List; case: (ltnP i m.+1) => im; last by rewrite nth_default // size_map size_enum_ord.
  rewrite (nth_map ord0) ?size_enum_ord //; apply: Z; by rewrite nth_enum_ord.
apply/ffunP => q; rewrite ffunE (nth_map ord0) ?size_enum_ord //; congr (x _); exact: nth_ord_enum.
Qed.
(** operators that agree on those basis states agree with the remaining qubits projected to 0 *)
Lemma agree_on (V1 V2 : mat) cl : Nat.max (q_n c1) (q_n c2) = m.+1 ->
  (forall l, basis_input n k l -> V1 *m ket cl (SBits l) = V2 *m ket cl (SBits l)) <-> V1 *m proj0 C [set q : Lg | (k <= q)%N] = V2 *m proj0 C [set q : Lg | (k <= q)%N].
Proof.
move=> En; split=> H.
- apply: mxP => x z; rewrite !entry_projR; case: forallP => Z; rewrite ?mulr0 // !mulr1.
  have [l [B E]] : exists l, basis_input n k l /\ bits m.+1 l = z.
    apply: bits_of => // q kq; have := Z q; rewrite inE kq /=; exact: negbTE.
  by rewrite -E -(mul_ket cl) -(mul_ket cl) H.
- move=> l [L Z].
  have P : proj0 C [set q : Lg | (k <= q)%N] *m ket cl (SBits l) = ket cl (SBits l).
    apply: (proj2 (@product_fits C m.+1 _ _ _)) => q; rewrite inE => kq; case: (ltnP q (size l)) => ql; last by rewrite nth_default ?size_map.
    by rewrite (nth_map false) // -nth_List Z //; apply/leP.
  by rewrite -P !mulmxA H.
Qed.

Lemma classical_iff (V1 V2 : mat) eps cl : Nat.max (q_n c1) (q_n c2) = m.+1 -> 0 < eps -> eps <= 1 -> classical V1 -> classical V2 ->
  (forall l, basis_input n k l -> close eps (V1 *m ket cl (SBits l)) (V2 *m ket cl (SBits l))) <->
  V1 *m proj0 C [set q : Lg | (k <= q)%N] = V2 *m proj0 C [set q : Lg | (k <= q)%N].
Proof.
move=> En e0 e1 [f1 F1] [f2 F2]; rewrite -(agree_on V1 V2 cl En); split=> Q l B.
  have := Q l B; rewrite !(classical_ket _ _ F1) !(classical_ket _ _ F2) => /(classical_close e1) E.
  by apply: vecP => x; rewrite !ket_bits E.
rewrite (Q l B); left; rewrite subrr /inner mulmx0 mxE; by rewrite pmulrn_lgt0.
Qed.
Lemma classical_decided : Nat.max (q_n c1) (q_n c2) = m.+1 -> exists V1 V2, [/\ realises p1 V1, realises p2 V2, unitary V1 & unitary V2] /\
  forall (q : package C Lg nat_eqType) (s : schemes) (A1 A2 : {set Lg}) (eps : C), @same_node_test C [lmodType C of vec] (q_nodeV q) -> good_schemes q p1 p2 s -> 0 < eps -> eps <= 1 ->
  classical V1 -> classical V2 ->
  forall (MT : Type) (word : MT -> N * MT) (unif : N -> MT -> N * MT) (e : env stimulus (gen MT)) (clifford : stab -> vec), fair unif -> in_range unif ->
  stimuli_of word unif c1 c2 ComputationalBasis e -> describes q s zero p1 p2 A1 A2 eps (ket clifford) e ->
  forall fuel pf ma, (k <= 63)%coq_nat -> g_used (m_gen ma) = nil ->
  choose_flow e (m_cfg ma) = FSequential -> never_fires e (m_cfg ma) -> no_exceptions e (m_cfg ma) -> only_simulations (m_cfg ma) ->
  maxSims (sim (m_cfg ma)) = (2 ^ N.of_nat k)%num -> r_performed (m_res ma) = 0%num -> N.lt (2 ^ N.of_nat k)%num (N.of_nat fuel) ->
  let Z := [set q : Lg | (k <= q)%N] in
  exists ma', SeqFlow.run fuel pf e ma = Returned ma' /\
    [/\ r_eq (m_res ma') = ProbablyEquivalent <-> V1 *m proj0 C Z = V2 *m proj0 C Z &
        r_eq (m_res ma') = NotEquivalent <-> V1 *m proj0 C Z <> V2 *m proj0 C Z].
Proof.
move=> En; have [V1 [V2 [R H]]] := exhaustive; exists V1, V2; split=> // q s A1 A2 eps hn hs e0 e1 F1 F2 MT word unif e cl FA IR st hd fuel pf ma h1 h2 h3 h4 h5 h6 h7 h8 h9 Z.
have [ma' [Rm [X Y T]]] := H q s A1 A2 eps hn hs e0 MT word unif e cl FA IR st hd fuel pf ma h1 h2 h3 h4 h5 h6 h7 h8 h9.
have K := classical_iff cl En e0 e1 F1 F2.
exists ma'; split=> //; split; first by rewrite X K.
rewrite -K; split=> [E|N]; first by rewrite -X E.
by case: T => // /X.
Qed.

Lemma drawn_bits (MT : Type) (word : MT -> N * MT) (unif : N -> MT -> N * MT) (e : env stimulus (gen MT)) g t :
  stimuli_of word unif c1 c2 ComputationalBasis e -> drawn_from e g t -> exists l, t = SBits l.
Proof.
move=> st [l [g' D]]; elim: l g D => [|x l IH] g /= D; inversion D as [|? ? g1 ? ? E D']; subst; last exact: IH D'.
move/st: E => [fuel]; rewrite /setRandomInitialState /=; case: (genComputational _ _ _ _ _ _ _ _) => //= bs g2 [<- _]; by exists bs.
Qed.
Lemma phases_never_seen : exists V1 V2, [/\ realises p1 V1, realises p2 V2, unitary V1 & unitary V2] /\
  forall (q : package C Lg nat_eqType) (s : schemes) (A1 A2 : {set Lg}) (eps : C) (D : mat),
  @same_node_test C [lmodType C of vec] (q_nodeV q) -> good_schemes q p1 p2 s -> 0 < eps -> diagonal D -> V1 = V2 *m D ->
  forall (MT : Type) (word : MT -> N * MT) (unif : N -> MT -> N * MT) (e : env stimulus (gen MT)) (clifford : stab -> vec),
  stimuli_of word unif c1 c2 ComputationalBasis e -> describes q s zero p1 p2 A1 A2 eps (ket clifford) e ->
  forall fuel pf ma l g', draws e (m_gen ma) l g' -> l <> nil -> N.of_nat (length l) = maxSims (sim (m_cfg ma)) -> (length l < fuel)%coq_nat ->
  choose_flow e (m_cfg ma) = FSequential -> never_fires e (m_cfg ma) -> no_exceptions e (m_cfg ma) -> only_simulations (m_cfg ma) -> r_performed (m_res ma) = 0%num ->
  exists ma', SeqFlow.run fuel pf e ma = Returned ma' /\ r_eq (m_res ma') = ProbablyEquivalent.
Proof.
have [V1 [V2 [R H]]] := sim_exact; have [_ _ uV1 uV2] := R.
exists V1, V2; split=> // q s A1 A2 eps D hn hs e0 dD E MT word unif e cl st hd fuel pf ma l g' dr l0 hl hf h1 h2 h3 h4 h5.
apply: (agreeing_run e fuel pf ma l g' dr) => // t /(drawn_bits st) [b ->].
have u := ket_unit cl b; apply/(H q s A1 A2 eps hn hs e0 _ _ _ _ hd) => //; right.
have u1 : inner (V1 *m ket cl (SBits b)) (V1 *m ket cl (SBits b)) = 1 by rewrite inner_unitary.
have u2 : inner (V2 *m ket cl (SBits b)) (V2 *m ket cl (SBits b)) = 1 by rewrite inner_unitary.
have EW : V1 *m ket cl (SBits b) = entry D (bits m.+1 b) (bits m.+1 b) *: (V2 *m ket cl (SBits b)).
  by rewrite E -mulmxA diag_ket // -scalemxAr.
by rewrite (fidelity u1 u2 EW) expr1n subrr normr0.
Qed.
End W.

(** ** circuits that map basis states to multiples of basis states are decided up to phases *)
Section V2.
Variables (C : numClosedFieldType) (n : nat).
Local Notation Lg := [finType of 'I_n].
Local Notation vec := (vec C Lg).
Local Notation mat := (mat C Lg).
Lemma mono_ket cl l (V : mat) f : (forall x y, x != f y -> entry V x y = 0) ->
  V *m @ket C n cl (SBits l) = entry V (f (bits n l)) (bits n l) *: @ket C n cl (SBits (codom (f (bits n l)))).
Proof.
move=> H; apply: vecP => x; rewrite mul_ket mxE ket_bits.
have -> : bits n (codom (f (bits n l))) = f (bits n l).
  apply/ffunP => q; rewrite ffunE; rewrite -{2}(enum_rankK q) /= .
  by rewrite (nth_map q) ?size_enum_ord // nth_ord_enum enum_rankK.
by case: eqP => [->|/eqP N]; rewrite ?mulr1 // mulr0 H.
Qed.
(** unit vectors along two basis states are close only if the basis states are the same *)
Lemma mono_close cl eps a b l l' : let u := a *: @ket C n cl (SBits l) in let v := b *: @ket C n cl (SBits l') in
  inner u u = 1 -> inner v v = 1 -> eps <= 1 -> close eps u v -> bits n l = bits n l'.
Proof.
move=> u v uu uv e1; case: (eqVneq (bits n l) (bits n l')) => // N.
have I0 : inner u v = 0.
  by rewrite /u /v inner_scalel inner_scaler inner_ket ket_bits eq_sym (negbTE N) conjC0 !mulr0.
case; first rewrite (dist_Re uu uv) I0 raddf0 subr0 ltr_pmuln2r //.
  by move=> H; have := Order.POrderTheory.lt_le_trans H e1; rewrite Order.POrderTheory.ltxx.
by rewrite I0 normr0 expr0n /= sub0r normrN normr1 => H; have := Order.POrderTheory.lt_le_trans H e1; rewrite Order.POrderTheory.ltxx.
Qed.
End V2.

Section W2.
Variables (C : numClosedFieldType) (m : nat).
Local Notation Lg := [finType of 'I_m.+1].
Local Notation gate := (gate C nat_eqType).
Local Notation op := (op nat gate).
Local Notation circ := (circ op).
Local Notation mat := (mat C Lg).
Local Notation vec := (vec C Lg).
Variables (c1 c2 : circ) (zero : nat).
Local Notation p1 := (as_circuit m c1).
Local Notation p2 := (as_circuit m c2).
Hypotheses (W1 : wf_circuit p1) (W2 : wf_circuit p2) (U1 : unitary_circuit p1) (U2 : unitary_circuit p2).
Local Notation n := (Nat.max (q_n c1) (q_n c2)).
Local Notation k := (primary c1).
Local Notation P0 := (proj0 C [set q : Lg | (k <= q)%N]).

Lemma mono_iff (V1 V2 : mat) eps cl : n = m.+1 -> 0 < eps -> eps <= 1 -> unitary V1 -> unitary V2 -> monomial V1 -> monomial V2 ->
  (forall l, basis_input n k l -> close eps (V1 *m ket cl (SBits l)) (V2 *m ket cl (SBits l))) <->
  exists D, diagonal D /\ V1 *m P0 = V2 *m D *m P0.
Proof.
move=> En e0 e1 uV1 uV2 [f1 F1] [f2 F2].
have u1 l : inner (V1 *m ket cl (SBits l)) (V1 *m ket cl (SBits l)) = 1 by rewrite inner_unitary // ket_unit.
have u2 l : inner (V2 *m ket cl (SBits l)) (V2 *m ket cl (SBits l)) = 1 by rewrite inner_unitary // ket_unit.
split=> [H|[D [dD /(proj2 (agree_on V1 (V2 *m D) cl En)) H]] l B]; last first.
  right; rewrite (fidelity (u1 l) (u2 l) (w := entry D (bits m.+1 l) (bits m.+1 l))) ?expr1n ?subrr ?normr0 //.
  by rewrite (H l B) -mulmxA diag_ket // -scalemxAr.
pose D : mat := mx (fun x y : basis Lg => if x == y then entry V1 (f1 x) x / entry V2 (f2 x) x else 0).
have dD : diagonal D by move=> x y /negbTE N; rewrite entry_mx N.
exists D; split=> //; apply/(agree_on V1 (V2 *m D) cl En) => l B.
rewrite -mulmxA (diag_ket _ _ dD) -scalemxAr /D entry_mx eqxx.
have := H l B; have := u1 l; have := u2 l; rewrite (mono_ket cl l F1) (mono_ket cl l F2) => v2 v1.
move/(mono_close v1 v2 e1) => E.
have N2 : entry V2 (f2 (bits m.+1 l)) (bits m.+1 l) != 0.
  by apply/eqP => Z; move: v2; rewrite Z scale0r /inner mulmx0 mxE => /esym /eqP; rewrite oner_eq0.
rewrite scalerA divfK //; congr (_ *: _); apply: vecP => x; by rewrite !ket_bits E.
Qed.

Lemma mono_decided : n = m.+1 -> exists V1 V2, [/\ realises p1 V1, realises p2 V2, unitary V1 & unitary V2] /\
  forall (q : package C Lg nat_eqType) (s : schemes) (A1 A2 : {set Lg}) (eps : C), @same_node_test C [lmodType C of vec] (q_nodeV q) -> good_schemes q p1 p2 s -> 0 < eps -> eps <= 1 ->
  monomial V1 -> monomial V2 ->
  forall (MT : Type) (word : MT -> N * MT) (unif : N -> MT -> N * MT) (e : env stimulus (gen MT)) (clifford : stab -> vec), fair unif -> in_range unif ->
  stimuli_of word unif c1 c2 ComputationalBasis e -> describes q s zero p1 p2 A1 A2 eps (ket clifford) e -> (k <= 63)%coq_nat ->
  let phases := exists D, diagonal D /\ V1 *m P0 = V2 *m D *m P0 in
  (forall fuel pf ma, g_used (m_gen ma) = nil ->
    choose_flow e (m_cfg ma) = FSequential -> never_fires e (m_cfg ma) -> no_exceptions e (m_cfg ma) -> only_simulations (m_cfg ma) ->
    maxSims (sim (m_cfg ma)) = (2 ^ N.of_nat k)%num -> r_performed (m_res ma) = 0%num -> N.lt (2 ^ N.of_nat k)%num (N.of_nat fuel) ->
    exists ma', SeqFlow.run fuel pf e ma = Returned ma' /\
      [/\ r_eq (m_res ma') = ProbablyEquivalent <-> phases & r_eq (m_res ma') = NotEquivalent <-> ~ phases]) /\
  (forall c g pp x, g_used g = nil -> only_simulations c ->
    maxSims (sim c) = (2 ^ N.of_nat k)%num -> hasTimeout c = false -> par_returned e c g pp x ->
    [/\ r_eq (p_res x) = ProbablyEquivalent <-> phases & r_eq (p_res x) = NotEquivalent <-> ~ phases]).
Proof.
move=> En; have [V1 [V2 [R H]]] := sim_exact zero W1 W2 U1 U2; have [_ _ uV1 uV2] := R.
exists V1, V2; split=> // q s A1 A2 eps hn hs e0 e1 M1 M2 MT word unif e cl FA IR st hd K63 phases.
have HE l := H q s A1 A2 eps hn hs e0 _ _ _ _ hd (SBits l) (ket_unit cl l).
have K := mono_iff cl En e0 e1 uV1 uV2 M1 M2.
have fin r : (r = NotEquivalent /\ (exists l, refuting_input n k e l)) \/ (r = ProbablyEquivalent /\ forall l, ~ refuting_input n k e l) ->
    [/\ r = ProbablyEquivalent <-> phases & r = NotEquivalent <-> ~ phases].
  rewrite /phases -K => -[[-> [l [B E]]]|[-> N]].
  - have NC : ~ close eps (V1 *m ket cl (SBits l)) (V2 *m ket cl (SBits l)) by move/HE; rewrite E.
    split; split; [by []|by move=> X; case: NC; exact: X|by move=> _ Y; case: NC; exact: Y|by []].
  - have NC : forall l, basis_input n k l -> close eps (V1 *m ket cl (SBits l)) (V2 *m ket cl (SBits l)).
      by move=> l B; apply/HE => E; apply: (N l).
    by split; split.
split.
- move=> fuel pf ma gu h3 h4 h5 h6 h7 h8 h9.
  have [ma' [Rm X]] := @exhaustive_run _ _ word unif FA IR c1 c2 e st fuel pf ma K63 gu h3 h4 h5 h6 h7 h8 h9.
  by exists ma'; split=> //; apply: fin; case: X => [|[? [_ ?]]]; [left|right].
- move=> c g pp x gu h6 h7 h8 pr; apply: fin.
  by case: (@exhaustive_parallel _ _ word unif IR c1 c2 e st c g pp x K63 gu h6 h7 h8 pr) => [|[? [_ ?]]]; [left|right].
Qed.
End W2.
