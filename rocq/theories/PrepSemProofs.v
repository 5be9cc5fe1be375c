From mathcomp Require Import all_ssreflect all_fingroup all_algebra.
From Verif Require Import Perm PermSpec PermProofs Prep PrepSpec PrepProofs PrepProofs2 PrepProofs3 DDCheck DDSpec Qubits QubitsProofs QubitsProofs2 DDSem DDSemProofs2 PrepSem LiftProofs.
Set Implicit Arguments.
Unset Strict Implicit.
Unset Printing Implicit Defensive.
Import GRing.Theory Num.Theory GroupScope.
Local Open Scope ring_scope.

Lemma memP (T : eqType) (x : T) (l : seq T) : reflect (List.In x l) (x \in l).
Proof.
elim: l => [|y l IH] /=; first by apply: (iffP idP).
rewrite in_cons; apply: (iffP orP) => [[/eqP ->|/IH]|[->|/IH]]; auto.
Qed.

Section Local.
Variables (C : numClosedFieldType) (Lg : finType) (Ph : eqType).
Local Notation op := (op Ph (gate C Ph)).
Lemma sem_op_in (o : op) (L L' : Ph -> Lg) : {in op_qubits o, L =1 L'} -> sem_op L o = sem_op L' o :> mat C Lg.
Proof.
move: o; fix IH 1 => -[g|a b|l] /= H; first exact: gmx_in.
  by rewrite !H ?inE ?eqxx ?orbT.
elim: l H => [|o l E] // H; rewrite E ?IH // => q Hq; apply: H; by rewrite mem_cat Hq ?orbT.
Qed.
Lemma sem_ops_in (l : seq op) (L L' : Ph -> Lg) : (forall o q, List.In o l -> q \in op_qubits o -> L q = L' q) -> sem_ops L l = sem_ops L' l :> mat C Lg.
Proof.
elim: l => [|o l E] // H /=; rewrite E; last by move=> o' q Ho; apply: H; right.
by congr (_ *m _); apply: sem_op_in => q; apply: H; left.
Qed.
End Local.

Section Shrink.
Variables (C : numClosedFieldType) (Lg Lg' : finType) (Ph : eqType) (f : Lg' -> Lg).
Hypothesis fi : injective f.
Local Notation gate := (gate C Ph).
Local Notation keys c := (c_keys _ _ _ c).
Local Notation lay c := (c_layout _ _ _ c).
Local Notation out c := (c_output _ _ _ c).
Local Notation ops c := (c_ops _ _ _ c).
Variables (c : circuit Ph Lg gate) (s : circuit Ph Lg' gate).
Hypotheses (W : wf_circuit c) (Ws : wf_circuit s) (Eo : ops s = ops c) (Ks : {subset keys s <= keys c}).
Hypothesis kept : forall i, i \in keys s -> lay c i = f (lay s i).
Hypothesis gone : forall i, i \in keys c -> i \notin keys s -> [/\ lay c i \notin codom f, forall o, List.In o (ops c) -> i \notin op_qubits o &
  (i, lay c i) \in out c \/ (i \notin map fst (out c) /\ lay c i \notin map snd (out c))].
Hypothesis outs : forall i v, i \in keys s -> ((i, v) \in out s) = ((i, f v) \in out c).
Hypothesis outi : forall i v, i \in keys s -> (i, v) \in out c -> v \in codom f.

Lemma fst_uniq (T U : eqType) (l : seq (T * U)) i a b : uniq (map fst l) -> (i, a) \in l -> (i, b) \in l -> a = b.
Proof.
elim: l => [|[j d] l IH] //= /andP [n u]; rewrite !inE => /orP [/eqP e1|A] /orP [/eqP e2|B].
- by case: e1 => _ ->; case: e2 => _ ->.
- by case: e1 => e _; have := map_f fst B; rewrite /= e (negbTE n).
- by case: e2 => e _; have := map_f fst A; rewrite /= e (negbTE n).
- exact: IH.
Qed.
(* an output of c is inside or fixed *)
Lemma out_cases i v : (i, v) \in out c -> (i \in keys s /\ exists2 v', v = f v' & (i, v') \in out s) \/ (i \notin keys s /\ v = lay c i /\ v \notin codom f).
Proof.
move=> I; have [_ _ _ [U1 _ Sk _]] := W; have Ik : i \in keys c by apply: Sk; exact: (map_f fst I).
case: (boolP (i \in keys s)) => Is; [left|right]; split=> //.
  by have /codomP [v' e] := outi Is I; exists v' => //; rewrite outs // -e.
have [n1 _ [O|[N _]]] := gone Ik Is; last by rewrite (map_f fst I) in N.
by rewrite (fst_uniq U1 I O).
Qed.
Lemma untouched_lift q : untouched c (f q) <-> untouched s q.
Proof.
have [_ _ _ [U1 _ Sk Sv]] := W; have [_ Li _ [_ _ Sks Svs]] := Ws; split=> -[N H]; split.
- apply/negP => /mapP [[i v] I /= e]; subst q; case/negP: N; apply/mapP; exists (i, f v) => //; rewrite -outs //; apply: Sks; exact: (map_f fst I).
- move=> i Is e; have [H1 H2] := H i (Ks Is) (etrans (kept Is) (congr1 f e)); rewrite Eo; split=> //.
  apply/negP => /mapP [[j v] I /= ej]; subst j; case/negP: H1; apply/mapP; exists (i, f v) => //; by rewrite -outs.
- apply/negP => /mapP [[i v] I /= e]; subst v; case: (out_cases I) => [[Is [v' /fi e I']]|[_ [_]]]; last by rewrite codom_f.
  by case/negP: N; rewrite e; exact: (map_f snd I').
- move=> i Ik e; case: (boolP (i \in keys s)) => Is; last by have [] := gone Ik Is; rewrite e codom_f.
  have e' : lay s i = q by apply: fi; rewrite -kept.
  have [H1 H2] := H i Is e'; rewrite -Eo; split=> //; apply/negP => /mapP [[j v] I /= ej]; subst j.
  by case: (out_cases I) => [[_ [v' _ I']]|[]]; [case/negP: H1; exact: (map_f fst I')|rewrite Is].
Qed.
Lemma outside_fixed (t : {perm Lg}) : (forall i v, (i, v) \in out c -> t (lay c i) = v) -> (forall q, untouched c q -> t q = q) ->
  forall q, q \notin codom f -> t q = q.
Proof.
move=> H1 H2 q nq; case: (boolP (has (fun i => lay c i == q) (keys c))) => [/hasP [i Ik /eqP e]|/hasPn N].
  case: (boolP (i \in keys s)) => Is; first by rewrite -e kept // codom_f in nq.
  have [_ idl [O|[O1 O2]]] := gone Ik Is; first by rewrite -e; rewrite -{2}(H1 _ _ O).
  apply: H2; split; first by rewrite -e.
  have [_ Li _ _] := W; move=> j Jk ej; have -> : j = i by apply: Li => //; rewrite ej e.
  by [].
apply: H2; have [_ _ _ [_ _ _ Sv]] := W; split; last by move=> i Ik e; have := N i Ik; rewrite e eqxx.
by apply/negP => /Sv /mapP [i Ik e]; have := N i Ik; rewrite -e eqxx.
Qed.

Lemma lift_layout : sem_ops (lay c) (ops c) = lift f (sem_ops (lay s) (ops s)).
Proof.
rewrite lift_sem_ops // Eo; apply: sem_ops_in => o q Ho Hq; apply: kept; have [_ _ Hin _] := Ws; apply: Hin Hq; by rewrite Eo.
Qed.
Theorem lift_realises V : realises c V <-> exists2 V', realises s V' & V = lift f V'.
Proof.
have [_ _ _ [_ _ Sk _]] := W; have [_ _ _ [_ _ Sks _]] := Ws; split.
- move=> [t [H1 H2 ->]]; have [t' e] := lperm_onto fi (outside_fixed H1 H2).
  exists (Pm C t' *m sem_ops (lay s) (ops s)); last by rewrite lift_mul // lift_layout lift_Pm // e.
  exists t'; split=> // [i v I|q Hq].
    have Is : i \in keys s by apply: Sks; exact: (map_f fst I).
    by apply: fi; rewrite -(lpermE fi) -e -kept //; apply: H1; rewrite -outs.
  by apply: fi; rewrite -(lpermE fi) -e; apply: H2; apply/untouched_lift.
- move=> [V' [t' [H1 H2 ->]] ->]; exists (lperm fi t'); split; last by rewrite lift_mul // lift_layout lift_Pm.
    move=> i v I; case: (out_cases I) => [[Is [v' -> I']]|[_ [-> n]]]; last by rewrite lpermN.
    by rewrite kept // lpermE (H1 _ _ I').
  move=> q Hq; case: (boolP (q \in codom f)) => [/codomP [q' e]|nq]; last by rewrite lpermN.
  by subst q; rewrite lpermE H2 //; apply/untouched_lift.
Qed.
End Shrink.

(** added wires that nothing acts on *)
Section Pad.
Variables (C : numClosedFieldType) (Lg : finType) (Ph : eqType).
Local Notation gate := (gate C Ph).
Variables (c d : circuit Ph Lg gate).
Local Notation keys c := (c_keys _ _ _ c).
Local Notation lay c := (c_layout _ _ _ c).
Local Notation out c := (c_output _ _ _ c).
Local Notation ops c := (c_ops _ _ _ c).
Hypotheses (W : wf_circuit c) (Eo : ops d = ops c) (Ko : out d = out c) (Kc : {subset keys c <= keys d}) (Lc : {in keys c, lay d =1 lay c}).
Lemma pad_realises V : realises d V <-> realises c V.
Proof.
have [_ _ Hin [_ _ Sk _]] := W.
have E : sem_ops (lay d) (ops d) = sem_ops (lay c) (ops c) :> mat C Lg.
  by rewrite Eo; apply: sem_ops_in => o q Ho Hq; apply: Lc; exact: Hin Hq.
have U q : untouched d q <-> untouched c q.
  split=> -[N H]; split; rewrite ?Ko // -?Ko // => i Ik e.
    by have [] := H i (Kc Ik) (etrans (Lc Ik) e); rewrite Ko Eo.
  case: (boolP (i \in keys c)) => Ic; first by rewrite Ko Eo; apply: H => //; rewrite -Lc.
  rewrite Ko Eo; split; first by apply: contra Ic; exact: Sk.
  by move=> o Ho; apply: contra Ic; exact: Hin.
split=> -[t [H1 H2 ->]]; exists t; rewrite E; split=> //.
- move=> i v I; have Ik : i \in keys c by apply: Sk; exact: (map_f fst I).
  by rewrite -Lc //; apply: H1; rewrite Ko.
- by move=> q Hq; apply: H2; apply/U.
- move=> i v; rewrite Ko => I; have Ik : i \in keys c by apply: Sk; exact: (map_f fst I).
  by rewrite Lc //; apply: H1.
- by move=> q Hq; apply: H2; apply/U.
Qed.
End Pad.
