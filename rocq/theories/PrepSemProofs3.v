From Coq Require Import Arith Lia List.
From mathcomp Require Import all_ssreflect all_fingroup all_algebra.
From Verif Require Import Perm PermSpec PermProofs Prep PrepSpec PrepProofs PrepProofs2 PrepProofs3 DDCheck DDSpec Qubits QubitsProofs QubitsProofs2 DDSem DDSemProofs2 PrepSem LiftProofs PrepSemProofs PrepSemProofs2.
Set Implicit Arguments.
Unset Strict Implicit.
Unset Printing Implicit Defensive.
Import GRing.Theory Num.Theory GroupScope.
Local Open Scope ring_scope.

Section Setup.
Variables (C : numClosedFieldType) (m : nat).
Local Notation gate := (gate C nat_eqType).
Local Notation op := (op nat gate).
Local Notation circ := (circ op).

Lemma restored_same b (L L2 : circ) : wf_circ L -> restored b L L2 -> garbage_unread L -> as_circuit m L2 = as_circuit m L.
Proof.
move=> [_ [_ [_ [M _]]]] [E1 [_ [E3 [M2 [H1 [H2 _]]]]]] G.
rewrite /as_circuit E1 E3 (_ : q_out L2 = q_out L) //; apply: map_ext_eq => // k.
case X: (qfind k (q_out L2)) => [v|]; first by rewrite (H1 _ _ X).
case Y: (qfind k (q_out L)) => [v|] //.
have /(H2 _ _ Y) : (v < b)%coq_nat \/ q_gar L v = false; last by rewrite /maps X.
by right; case g: (q_gar L v) => //; case: (G v g); exists k.
Qed.
Lemma padded_ok n (S S2 : circ) : wf_circ S -> (q_n S <= n)%N -> (n <= m.+1)%N -> padded n S S2 -> ok m S2.
Proof.
move=> W le lem P; have Ij := padded_inj _ _ _ W P; have V := padded_values _ _ _ W (leP le) P.
have [M1 [I1 [Vc [M2 [I2 [V2 K2]]]]]] := W; have [E1 [En [[MF F] [E4 _]]]] := P.
split; rewrite ?E4 //.
- move=> v /V [/ltP l|[/ltP l _]]; apply: leq_trans l _ => //; exact: leq_trans le lem.
- by move=> v /V2 l; apply/V; left.
- by move=> p /K2 [l L]; exists l; rewrite /maps F L.
Qed.
Lemma padded_same n (S S2 : circ) : wf_circ S -> (q_n S <= m.+1)%N -> acts_inside S -> padded n S S2 ->
  acts_inside S2 /\ forall V, realises (as_circuit m S2) V <-> realises (as_circuit m S) V.
Proof.
move=> W le a P; have [M1 [I1 [Vc [M2 [I2 [V2 K2]]]]]] := W; have [E1 [En [[MF F] [E4 _]]]] := P; split.
  by move=> o p; rewrite E1 => Ho Hp; have [l L] := a _ _ Ho Hp; exists l; rewrite /maps F L.
move=> V; apply: pad_realises; first by apply: ok_wf => //; exact: wf_ok.
- by rewrite /= E1.
- by rewrite /= E4.
- by move=> p /(keysP m p M1) [l L]; apply/(keysP m p MF); exists l; rewrite /maps F L.
- by move=> p /(keysP m p M1) [l L]; rewrite (lay_at m L) (@lay_at _ m S2 p l) // /maps F L.
Qed.
End Setup.

Section Whole.
Variable C : numClosedFieldType.
Local Notation gate := (gate C nat_eqType).
Local Notation op := (op nat gate).
Local Notation circ := (circ op).
Local Notation anc := common_ancillaries.

Lemma anc_sym n (c1 c2 : circ) : anc n c1 c2 = anc n c2 c1.
Proof. by apply/setP => q; rewrite !inE minnC (andbC (q_anc c1 q)). Qed.
(* the larger circuit first *)
Lemma prep_sem_aux n m f (L S sL sS L2 S2 : circ) : (q_n L <= n.+1)%N -> (q_n S <= n.+1)%N -> (q_n sS <= q_n sL)%N -> q_n sL = m.+1 ->
  wf_circ L -> wf_circ S -> wf_circ sL -> wf_circ sS -> increasing f -> shrunk (@on_qubits C) f L sL -> shrunk (@on_qubits C) f S sS ->
  (forall q, (q_n sS <= q < m.+1)%N -> (q_n S <= f q)%N) -> restored (q_n sS) sL L2 -> padded (q_n sL) sS S2 ->
  acts_inside L -> acts_inside S -> garbage_unread L -> garbage_unread S ->
  [/\ wf_circuit (as_circuit m L2) /\ wf_circuit (as_circuit m S2),
      injective (@ren n m f) /\ (forall q : 'I_m.+1, ren n f q = f q :> nat),
      forall V, realises (as_circuit n L) V <-> exists2 V', realises (as_circuit m L2) V' & V = lift (@ren n m f) V',
      forall V, realises (as_circuit n S) V <-> exists2 V', realises (as_circuit m S2) V' & V = lift (@ren n m f) V' &
      anc m L2 S2 = @ren n m f @^-1: anc n L S].
Proof.
move=> leL leS les Em WL WS WsL WsS I SL SS top R P aL aS gL gS.
have [eo [_ [_ [_ SF]]]] := SL; have [eo' [_ [_ [_ SF']]]] := SS.
have bound q : (q < m.+1)%N -> (f q < n.+1)%N by rewrite -Em => /ltP /SF [/ltP l _]; exact: leq_trans l leL.
have lesL : (q_n sL <= m.+1)%N by rewrite Em.
have lesS : (q_n sS <= m.+1)%N by rewrite -Em.
have topL q : (q_n sL <= q < m.+1)%N -> (q_n L <= f q)%N by rewrite Em => /andP [u v]; rewrite leqNgt v in u.
have isL := shrunk_inside WL SL aL; have isS := shrunk_inside WS SS aS.
have E := restored_same m WsL R (shrunk_unread WsL SL gL).
have [iS2 PS] := padded_same WsS lesS isS P.
split.
- split; first by rewrite E; apply: ok_wf => //; exact: wf_ok.
  by apply: ok_wf => //; apply: padded_ok P => //; rewrite Em.
- split; first exact: ren_inj.
  by move=> q; rewrite /ren inordK //; exact: bound.
- by move=> V; rewrite E; exact: shrunk_realises.
- move=> V; split=> [/(shrunk_realises WS WsS I SS aS leS lesS top bound) [V' /PS R' ->]|[V' /PS R' ->]]; first by exists V'.
  by apply/(shrunk_realises WS WsS I SS aS leS lesS top bound); exists V'.
have [_ [R2 [R3 [_ [_ [_ [Rlow Rhigh]]]]]]] := R; have [_ [P2 [_ [_ [Plow Phigh]]]]] := P.
apply/setP => q; rewrite !inE R2 P2 minnn Em leqNgt ltn_ord /= /ren inordK ?bound // geq_min.
case: (ltnP q (q_n sS)) => [lq|gq].
  have [l' [e1 _]] := SF' q (ltP lq).
  have [l2 [e2 _]] := SF q (ltP (leq_trans lq les)).
  by rewrite (Rlow q (ltP lq)).1 (Plow q (ltP lq)).1 e1 e2 (leqNgt (q_n L)) (leqNgt (q_n S)) (introT ltP l') (introT ltP l2).
have [p Pp] : values (q_lay sL) q by apply/(proj1 (proj2 (proj2 WsL))); apply/ltP; rewrite Em.
rewrite (Rhigh p q Pp (leP gq)).1 (Phigh q _).1 ?top ?gq ?orbT ?ltn_ord //; split; [exact/leP|by apply/ltP; rewrite Em].
Qed.
Theorem prep_sem nd n m (c1 c2 c1' c2' : circ) : wf_circ c1 -> wf_circ c2 -> acts_inside c1 -> acts_inside c2 -> garbage_unread c1 -> garbage_unread c2 ->
  prepare (@on_qubits C) nd c1 c2 = PVal (c1', c2') -> maxn (q_n c1) (q_n c2) = n.+1 -> q_n c1' = m.+1 ->
  q_n c2' = m.+1 /\ exists F : 'I_m.+1 -> 'I_n.+1,
  [/\ wf_circuit (as_circuit m c1') /\ wf_circuit (as_circuit m c2'), {mono F : a b / (a < b)%N},
      forall V, realises (as_circuit n c1) V <-> exists2 V', realises (as_circuit m c1') V' & V = lift F V',
      forall V, realises (as_circuit n c2) V <-> exists2 V', realises (as_circuit m c2') V' & V = lift F V' &
      anc m c1' c2' = F @^-1: anc n c1 c2].
Proof.
move=> W1 W2 a1 a2 g1 g2 EP En Em.
have l1 : (q_n c1 <= n.+1)%N by rewrite -En leq_maxl.
have l2 : (q_n c2 <= n.+1)%N by rewrite -En leq_maxr.
have mono f : increasing f -> (forall q : 'I_m.+1, ren n f q = f q :> nat) -> {mono @ren n m f : a b / (a < b)%N}.
  move=> I e a b; rewrite !e; apply/idP/idP => [|/ltP /I /ltP //]; rewrite !ltnNge; apply: contra => l.
  by case: (ltngtP (b : nat) a) l => // [/ltP /I /ltP /ltnW|->].
have [s1 [s2 [f [E [X1 [X2 [I [S1 [S2 [top N]]]]]]]]]] := strip_both (@on_qubits C) nd c1 c2 W1 W2.
have [d1 [d2 [E' H]]] := setup_both s1 s2 X1 X2.
move: EP; rewrite /prepare E /= E' => -[e1 e2]; subst d1 d2.
have top' q : (minn (q_n s1) (q_n s2) <= q)%N -> (minn (q_n c1) (q_n c2) <= f q)%N.
  move=> l; have := top q; have e a b : Nat.min a b = minn a b.
    by case: (leqP a b) => [/leP|/ltnW /leP] h; [rewrite Nat.min_l|rewrite Nat.min_r].
  by rewrite !e => /(_ (leP l)) /leP.
have ord : if (q_n c2 < q_n c1)%N then (q_n s2 <= q_n s1)%N else (q_n s1 <= q_n s2)%N.
  case: ltnP N => l.
    by rewrite (proj2 (Nat.ltb_lt _ _) (ltP l)) => -[_ /leP].
  by rewrite (proj2 (Nat.ltb_ge _ _) (leP l)) => -[_ /leP].
case B: (Nat.ltb (q_n s2) (q_n s1)) H => -[R P].
- have /ltP lt := proj1 (Nat.ltb_lt _ _) B; have lt12 : (q_n c2 < q_n c1)%N by case: ltnP ord => // _; rewrite leqNgt lt.
  have m1 : q_n s1 = m.+1 by rewrite -Em; have [_ [-> _]] := R.
  have [] := @prep_sem_aux n m f c1 c2 s1 s2 c1' c2' l1 l2 (ltnW lt) m1 W1 W2 X1 X2 I S1 S2 _ R P a1 a2 g1 g2.
    by move=> q /andP [l _]; have := top' q; rewrite (minn_idPr (ltnW lt)) (minn_idPr (ltnW lt12)); apply.
  move=> Wf [_ e] Y1 Y2 Y3; split; first by have [_ [-> _]] := P.
  by exists (@ren n m f); split=> //; exact: mono.
- have /leP ge := proj1 (Nat.ltb_ge _ _) B.
  have m2 : q_n s2 = m.+1 by rewrite -Em; have [_ [-> _]] := P.
  have [] := @prep_sem_aux n m f c2 c1 s2 s1 c2' c1' l2 l1 ge m2 W2 W1 X2 X1 I S2 S1 _ R P a2 a1 g2 g1.
    case: ltnP ord => l l'; last by move=> q /andP [lq _]; have := top' q; rewrite (minn_idPl ge) (minn_idPl l); apply.
    by move=> q /andP [lq]; rewrite -m2 ltnNge (leq_trans l' lq).
  move=> [Wf1 Wf2] [_ e] Y1 Y2 Y3; split; first by have [_ [-> _]] := R.
  by exists (@ren n m f); split=> //; [exact: mono|rewrite anc_sym Y3 anc_sym].
Qed.
End Whole.

Section Unitary.
Variables (C : numClosedFieldType) (n m : nat) (F : 'I_m.+1 -> 'I_n.+1).
Hypothesis Fi : injective F.
Local Notation gate := (gate C nat_eqType).
Local Notation op := (op nat gate).
Lemma unitary_gate_down (g : gate) : unitary_gate [finType of 'I_n.+1] g -> unitary_gate [finType of 'I_m.+1] g.
Proof.
move=> U p Ip; have := U (fun q => F (p q)); rewrite /unitary => H.
apply: (lift_inj Fi); rewrite lift_mul // -lift_adj lift_1 // lift_gmx //; apply: H.
by move=> a b Ha Hb /Fi; exact: Ip.
Qed.
Lemma unitary_op_down (o : op) : unitary_op [finType of 'I_n.+1] o -> unitary_op [finType of 'I_m.+1] o.
Proof.
move: o; fix IH 1 => -[g|a b|l] //=; first exact: unitary_gate_down.
elim: l => [|o l E] //= [U1 U2]; split; [exact: IH|exact: E].
Qed.
End Unitary.

Section Nothing.
Variable C : numClosedFieldType.
Local Notation gate := (gate C nat_eqType).
Local Notation op := (op nat gate).
Local Notation circ := (circ op).
Lemma vanish n f (c s : circ) : wf_circ c -> acts_inside c -> wf_circ s -> q_n s = 0%N -> shrunk (@on_qubits C) f c s ->
  (forall o, List.In o (q_ops c) -> exists p, on_qubits o p) ->
  q_ops c = nil /\ forall V : mat C [finType of 'I_n.+1], realises (as_circuit n c) V <-> V = 1%:M.
Proof.
move=> W a Ws z S T; have [M1 [J1 [Vc [M2 [J2 [V2 K2]]]]]] := W; have [EO [SL [SO [SG SF]]]] := S.
have nk p : ~ keys (q_lay s) p.
  by move=> [l L]; have [_ [_ [Vs _]]] := Ws; have := (Vs l).1 (ex_intro _ p L); rewrite z => /Nat.nlt_0_r.
have E : q_ops c = nil.
  case Q: (q_ops c) => [|o l] //; have Io : List.In o (q_ops c) by rewrite Q; left.
  have [p Hp] := T o Io; have [l0 L] := a o p Io Hp; have [Id _] := SG p l0 L (nk p).
  by rewrite (Id o Io) in Hp.
split=> // V; split.
- move=> [t [H1 H2 ->]]; rewrite /= E /= mulmx1 (_ : t = 1%g) ?Pm_1 //.
  apply/perm.permP => q; rewrite perm1.
  have U : (forall p, (p \in c_keys _ _ _ (as_circuit n c)) -> c_layout _ _ _ (as_circuit n c) p = q -> (p, q) \in c_output _ _ _ (as_circuit n c) -> t q = q).
    by move=> p _ e I; rewrite -{1}e (H1 _ _ I).
  case: (boolP (has (fun p => (p, q) \in c_output _ _ _ (as_circuit n c)) [seq p <- c_keys _ _ _ (as_circuit n c) | c_layout _ _ _ (as_circuit n c) p == q])).
    by move=> /hasP [p]; rewrite mem_filter => /andP [/eqP e k] I; apply: U k e I.
  move=> /hasPn N; apply: H2.
  have N' p l : maps (q_lay c) p l -> inord l = q -> ~ maps (q_out c) p l.
    move=> L e O; have k : p \in c_keys _ _ _ (as_circuit n c) by apply/(keysP n p M1); exists l.
    have := N p; rewrite mem_filter k (lay_at n L) e eqxx => /(_ isT) /negP; apply; rewrite -e; exact: outI.
  have ud p l : maps (q_lay c) p l -> inord l = q -> ~ keys (q_out c) p /\ ~ values (q_out c) l.
    by move=> L e; have [_ [O|//]] := SG p l L (nk p); case: (N' p l L e O).
  split.
    apply/negP => /mapP [[p w] /(outP p w M2) [v [m1 ev]] /= e]; have [p' P'] := (Vc v).2 (V2 v (ex_intro _ p m1)).
    have [_] := ud p' v P' (etrans (esym ev) (esym e)); apply; by exists p.
  move=> p /(keysP n p M1) [l L]; rewrite (lay_at n L) => e; have [N1 _] := ud p l L e; split.
    by apply/negP => /mapP [[p' w] /(outP p' w M2) [v [m1 _]] /= e']; apply: N1; exists v; rewrite e'.
  by rewrite /= E.
- move=> ->; exists 1%g; split=> //=; last by rewrite E /= Pm_1 mul1mx.
    move=> p v I; rewrite perm1; have [k [m1 ->]] := (outP p v M2).1 I.
    have [l L] := K2 p (ex_intro _ k m1); have /= -> := lay_at n L.
    have [_ [O|[N1 _]]] := SG p l L (nk p); last by case: N1; exists k.
    by move: O; rewrite /maps m1 => -[->].
  by move=> q _; rewrite perm1.
Qed.
Lemma prep_vanish nd n (c1 c2 c1' c2' : circ) : wf_circ c1 -> wf_circ c2 -> acts_inside c1 -> acts_inside c2 ->
  (forall o, List.In o (q_ops c1) -> exists p, on_qubits o p) -> (forall o, List.In o (q_ops c2) -> exists p, on_qubits o p) ->
  prepare (@on_qubits C) nd c1 c2 = PVal (c1', c2') -> q_n c1' = 0%N ->
  [/\ q_ops c1' = nil, q_ops c2' = nil, forall V : mat C [finType of 'I_n.+1], realises (as_circuit n c1) V <-> V = 1%:M &
      forall V : mat C [finType of 'I_n.+1], realises (as_circuit n c2) V <-> V = 1%:M].
Proof.
move=> W1 W2 a1 a2 t1 t2 EP z.
have [s1 [s2 [f [d1 [d2 [E [I [X1 [X2 [S1 [S2 [_ [_ H]]]]]]]]]]]]] := prepare_main (@on_qubits C) nd c1 c2 W1 W2.
rewrite EP in E; case: E => e1 e2; subst d1 d2.
have [z1 z2 o1 o2] : [/\ q_n s1 = 0%N, q_n s2 = 0%N, q_ops c1' = q_ops s1 & q_ops c2' = q_ops s2].
  case B: (Nat.ltb (q_n s2) (q_n s1)) H => -[R P].
    have /ltP := proj1 (Nat.ltb_lt _ _) B; have [r1 [r2 _]] := R; have [p1 _] := P; by rewrite -r2 z.
  have /leP := proj1 (Nat.ltb_ge _ _) B; have [r1 [r2 _]] := R; have [p1 [p2 _]] := P; rewrite -p2 z leqn0 => /eqP. by [].
have [q1 R1] := vanish n W1 a1 X1 z1 S1 t1; have [q2 R2] := vanish n W2 a2 X2 z2 S2 t2.
by split=> //; [rewrite o1 (proj1 S1)|rewrite o2 (proj1 S2)].
Qed.
End Nothing.
