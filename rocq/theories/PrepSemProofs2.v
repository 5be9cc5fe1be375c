From Coq Require Import Arith Lia List.
From mathcomp Require Import all_ssreflect all_fingroup all_algebra.
From Verif Require Import Perm PermSpec PermProofs Prep PrepSpec PrepProofs PrepProofs2 PrepProofs3 DDCheck DDSpec Qubits QubitsProofs QubitsProofs2 DDSem DDSemProofs2 PrepSem LiftProofs PrepSemProofs.
Set Implicit Arguments.
Unset Strict Implicit.
Unset Printing Implicit Defensive.
Import GRing.Theory Num.Theory GroupScope.
Local Open Scope ring_scope.

Lemma uniqP' (T : eqType) (l : seq T) : reflect (List.NoDup l) (uniq l).
Proof.
elim: l => [|x l IH] /=; first by constructor; constructor.
apply: (iffP andP) => [[n /IH u]|/List.NoDup_cons_iff [n /IH u]].
  by constructor=> // /memP; apply/negP.
by split=> //; apply/memP.
Qed.
Lemma map_List (T U : Type) (f : T -> U) l : List.map f l = map f l.
Proof. by []. Qed.

Section As.
Variables (C : numClosedFieldType) (n : nat).
Local Notation gate := (gate C nat_eqType).
Local Notation op := (op nat gate).
Local Notation circ := (circ op).
Local Notation wire v := (inord v : 'I_n.+1).

Lemma wire_inj a b : (a < n.+1)%N -> (b < n.+1)%N -> wire a = wire b -> a = b.
Proof. by move=> la lb /(congr1 val); rewrite /= !inordK. Qed.
Lemma lay_at (c : circ) p l : maps (q_lay c) p l -> c_layout _ _ _ (as_circuit n c) p = wire l.
Proof. by rewrite /maps /= => ->. Qed.
Lemma keysP (c : circ) p : is_map (q_lay c) -> (p \in c_keys _ _ _ (as_circuit n c)) <-> keys (q_lay c) p.
Proof. by move=> M; rewrite (keys_in _ p M) /=; split=> /memP. Qed.
Lemma outP (c : circ) p (w : 'I_n.+1) : is_map (q_out c) -> ((p, w) \in c_output _ _ _ (as_circuit n c)) <-> exists v, maps (q_out c) p v /\ w = wire v.
Proof.
move=> M /=; split.
  by move=> /mapP [[p' v] I [-> ->]]; exists v; split=> //; apply/(maps_in _ _ _ M)/memP.
by move=> [v [/(maps_in _ _ _ M) /memP I ->]]; apply/mapP; exists (p, v).
Qed.
Lemma outI (c : circ) p v : is_map (q_out c) -> maps (q_out c) p v -> (p, wire v) \in c_output _ _ _ (as_circuit n c).
Proof. by move=> M m; apply/outP => //; exists v. Qed.

Definition ok (c : circ) : Prop :=
  [/\ is_map (q_lay c) /\ injective_map (q_lay c), is_map (q_out c) /\ injective_map (q_out c),
      forall v, values (q_lay c) v -> (v < n.+1)%N,
      forall v, values (q_out c) v -> values (q_lay c) v & forall p, keys (q_out c) p -> keys (q_lay c) p].
Lemma ok_wf (c : circ) : ok c -> acts_inside c -> wf_circuit (as_circuit n c).
Proof.
move=> [[M1 I1] [M2 I2] B V K] a; split.
- by apply/uniqP'; exact: is_map_nodup.
- move=> i j /(keysP i M1) [li Li] /(keysP j M1) [lj Lj]; rewrite (lay_at Li) (lay_at Lj) => /wire_inj e; apply: (I1 _ _ li) => //.
  by rewrite e //; apply: B; [exists i|exists j].
- by move=> o q Ho Hq; apply/(keysP q M1); apply: a Ho _.
split.
- rewrite /= -map_comp (_ : [seq _ | e <- q_out c] = map fst (q_out c)); last by apply: eq_map.
  by apply/uniqP'; exact: is_map_nodup.
- rewrite /= -map_comp (_ : [seq _ | e <- q_out c] = [seq (wire v) | v <- map snd (q_out c)]); last by rewrite -map_comp; apply: eq_map.
  rewrite map_inj_in_uniq; first by apply/uniqP'; apply/(inj_nodup _ M2).
  by move=> a' b' /memP /(values_in _ a' M2) /V /B la /memP /(values_in _ b' M2) /V /B lb; exact: wire_inj.
- move=> p /mapP [[p' w] I ->] /=; have [v [m _]] := (outP p' w M2).1 I.
  by apply/(keysP p' M1); apply: K; exists v.
- move=> w0 /mapP [[p w] I ->] /=; have [v [m ->]] := (outP p w M2).1 I.
  have [k Kk] := V v (ex_intro _ p m); apply/mapP; exists k; last by have /= -> := lay_at Kk.
  by apply/(keysP k M1); exists v.
Qed.
Lemma wf_ok (c : circ) : wf_circ c -> (q_n c <= n.+1)%N -> ok c.
Proof.
move=> [M1 [I1 [V [M2 [I2 [V2 K]]]]]] le; split=> //.
- by move=> v /V /ltP l; apply: leq_trans l le.
- by move=> v /V2 /V.
Qed.
End As.

Section ShrinkAs.
Variables (C : numClosedFieldType) (n m : nat) (f : nat -> nat).
Local Notation gate := (gate C nat_eqType).
Local Notation op := (op nat gate).
Local Notation circ := (circ op).
Definition ren (q : 'I_m.+1) : 'I_n.+1 := inord (f q).
Variables (c s : circ).
Hypotheses (W : wf_circ c) (Ws : wf_circ s) (I : increasing f) (S : shrunk (@on_qubits C) f c s) (Ha : acts_inside c).
Hypotheses (le : (q_n c <= n.+1)%N) (les : (q_n s <= m.+1)%N).
Hypothesis top : forall q, (q_n s <= q < m.+1)%N -> (q_n c <= f q)%N.
Hypothesis bound : forall q, (q < m.+1)%N -> (f q < n.+1)%N.

Lemma incr_inj a b : f a = f b -> a = b.
Proof. by move=> e; case: (Nat.lt_trichotomy a b) => [l|[-> //|l]]; have := I l; rewrite e => /Nat.lt_irrefl. Qed.
Lemma ren_inj : injective ren.
Proof. by move=> a b /(wire_inj (bound (ltn_ord a)) (bound (ltn_ord b))) /incr_inj e; apply: val_inj. Qed.
Lemma ren_at q : (q < m.+1)%N -> ren (inord q) = inord (f q).
Proof. by move=> l; rewrite /ren inordK. Qed.
Lemma shrunk_inside : acts_inside s.
Proof.
have [M1 [J1 [V [M2 [J2 [V2 K2]]]]]] := W; have [EO [SL [SO [SG SF]]]] := S.
move=> o p Ho Hp; rewrite EO in Ho; have [l L] := Ha Ho Hp.
case E: (qfind p (q_lay s)) => [q|]; first by exists q.
have N : ~ keys (q_lay s) p by case=> q; rewrite /maps E.
by have [Id _] := SG p l L N; rewrite (Id o Ho) in Hp.
Qed.
Lemma shrunk_unread : garbage_unread c -> garbage_unread s.
Proof.
have [Ms1 [Js1 [Vs [Ms2 [Js2 [Vs2 Ks2]]]]]] := Ws; have [EO [SL [SO [SG SF]]]] := S.
move=> G v gv [p Pv]; have l : Peano.lt v (q_n s) by apply: Vs2; exists p.
have [_ [_ eg]] := SF v l; rewrite eg in gv; apply: (G _ gv); exists p.
by rewrite /maps SO ?Pv //; apply: Ks2; exists v.
Qed.
Lemma shrunk_realises V : realises (as_circuit n c) V <-> exists2 V', realises (as_circuit m s) V' & V = lift ren V'.
Proof.
have [M1 [J1 [Vc [M2 [J2 [V2 K2]]]]]] := W; have [Ms1 [Js1 [Vs [Ms2 [Js2 [Vs2 Ks2]]]]]] := Ws.
have [EO [SL [SO [SG SF]]]] := S.
have bs v : values (q_lay s) v -> (v < m.+1)%N by move=> /Vs /ltP l; apply: leq_trans l les.
have bs2 v : values (q_out s) v -> (v < m.+1)%N by move=> /Vs2 /ltP l; apply: leq_trans l les.
have bc v : values (q_lay c) v -> (v < n.+1)%N by move=> /Vc /ltP l; apply: leq_trans l le.
have bc2 v : values (q_out c) v -> (v < n.+1)%N by move=> /V2 /ltP l; apply: leq_trans l le.
have Wc : wf_circuit (as_circuit n c) by apply: ok_wf => //; exact: wf_ok.
have Wss : wf_circuit (as_circuit m s) by apply: ok_wf; [exact: wf_ok|exact: shrunk_inside].
apply: lift_realises => //; first exact: ren_inj.
- move=> p /(keysP m p Ms1) [q L]; apply/(keysP n p M1); exists (f q); exact: SL.
- move=> p /(keysP m p Ms1) [q L]; rewrite (lay_at n (SL _ _ L)) (lay_at m L) ren_at //; apply: bs; by exists p.
- move=> p /(keysP n p M1) [l L] N; have Ns : ~ keys (q_lay s) p by move=> /(keysP m p Ms1) H; rewrite H in N.
  have ln : (l < n.+1)%N by apply: bc; exists p.
  have [Id Un] := SG p l L Ns; rewrite (lay_at n L); split.
  + apply/negP => /codomP [q]; rewrite /ren => /wire_inj e; have {e} e := e ln (bound (ltn_ord q)).
    case: (ltnP q (q_n s)) => [lq|gq].
      have [p' P'] := (Vs q).2 (ltP lq); case: Ns; exists q.
      have := SL _ _ P'; rewrite -e => P2; by rewrite (J1 _ _ _ L P2).
    have := top (q := q); rewrite gq ltn_ord => /(_ isT); rewrite -e leqNgt => /negP []; apply/ltP/Vc; by exists p.
  + move=> o Ho; apply/negP => Hp; by have := Id o Ho; rewrite /on_qubits Hp.
  + case: Un => [O|[N1 N2]]; [left|right].
      exact: (outI n M2 O).
    split.
      apply/negP => /mapP [[p' w] /(outP p' w M2) [v [m1 _]] /= e]; apply: N1; exists v; by rewrite e.
    apply/negP => /mapP [[p' w] /(outP p' w M2) [v [m1 ->]] /= /wire_inj e]; apply: N2; rewrite e //; [by exists p'|by apply: bc2; exists p'].
- move=> p v /(keysP m p Ms1) Kp; have E := SO p Kp; apply/idP/idP.
    move=> /(outP p v Ms2) [k [m1 ->]]; rewrite ren_at; last by apply: bs2; exists p.
    by apply: (outI n M2); rewrite /maps E m1.
  move=> /(outP p (ren v) M2) [k [m1]]; move: (m1); rewrite /maps E; case E': (qfind p (q_out s)) => [k'|] // [ek].
  rewrite -ek /ren => /wire_inj e; have k'm : (k' < m.+1)%N by apply: bs2; exists p.
  rewrite (_ : v = inord k'); first exact: (outI m Ms2 E').
  apply: val_inj; rewrite /= inordK //; apply: incr_inj; apply: e; exact: bound.
- move=> p v /(keysP m p Ms1) Kp /(outP p v M2) [k [m1 ->]]; have := SO p Kp; rewrite m1.
  case E': (qfind p (q_out s)) => [k'|] // [ek].
  apply/codomP; exists (inord k'); rewrite ren_at ?ek //; apply: bs2; by exists p.
Qed.
End ShrinkAs.
