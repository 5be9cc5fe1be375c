(** The meaning of the smallest diagrams (ZXSem.v): one spider on one wire is the rotation of that name. *)
From mathcomp Require Import all_ssreflect all_fingroup all_algebra.
From Verif Require Import Qubits QubitsProofs DDSem ZXSem ZXSemProofs ZXDemoProofs.
Set Implicit Arguments.
Unset Strict Implicit.
Unset Printing Implicit Defensive.
Import GRing.Theory Num.Theory.
Local Open Scope ring_scope.

Section Spider.
Variable C : numClosedFieldType.
(** input - spider - output; [h1], [h2]: Hadamard edges *)
Definition chain (k : vkind C) (h1 h2 : bool) : diagram C 1 2 [finType of 'I_3] :=
  Diagram (fun v => if v == inord 1 then k else Boundary)
    (fun e => if e == ord0 then (inord 0, inord 1, h1) else (inord 1, inord 2, h2))
    (fun _ => inord 0) (fun _ => inord 2) (fun v => if v == inord 1 then None else Some 0%N).
Lemma o3 : [/\ (inord 0 : 'I_3) = ord0, (inord 1 : 'I_3) = lift ord0 ord0 & (inord 2 : 'I_3) = ord_max].
Proof. by split; apply: val_inj; rewrite /= inordK. Qed.
Lemma chain_entry k h1 h2 (x y : basis [finType of 'I_1]) :
  entry (zx_sem (chain k h1 h2)) x y =
    \sum_(b : bool) amp k b * (ekernel C (h1 (+) is_x k) (y ord0) b * ekernel C (h2 (+) is_x k) b (x ord0)).
Proof.
rewrite semE.
pose f (b : bool) : {ffun [finType of 'I_3] -> bool} := [ffun v => if v == inord 1 then b else if v == inord 0 then y ord0 else x ord0].
have [e0 e1 e2] := o3.
have fI (b : bool) : [/\ f b (inord 0) = y ord0, f b (inord 1) = b & f b (inord 2) = x ord0] by split; rewrite ffunE e0 e1 ?e2.
rewrite (reindex_onto f (fun g => g (inord 1))) /=; last first.
  move=> g /agreesP /(_ ord0) [/= g0 g2]; apply/ffunP=> v; rewrite ffunE.
  case: eqP => [->//|n1]; case: eqP => [-> //|n0]; rewrite -g2; congr (g _); apply: val_inj; rewrite e2 /=.
  case: v n1 n0 => [[|[|[|]]] lv] //= n1 n0; [case: n0|case: n1]; apply: val_inj; by rewrite /= inordK.
apply: eq_big => [b|b _].
  have [f0 f1 f2] := fI b; rewrite f1 eqxx andbT; apply/agreesP=> i; rewrite (ord1 i) /=; by rewrite f0 f2.
have [f0 f1 f2] := fI b; congr (_ * _).
  rewrite !big_ord_recl big_ord0 /= e1 /= mul1r !mulr1; by rewrite -e1 f1.
rewrite !big_ord_recl big_ord0 mulr1 /eweight /= f0 f1 f2 e0 e1 e2 /= addbF.
by rewrite addbF.
Qed.
Definition bit (x : basis [finType of 'I_1]) : bool := x ord0.
(** a Z-spider with phase factor [a]: diag (1, a) *)
Lemma z_spider a (x y : basis [finType of 'I_1]) :
  entry (zx_sem (chain (ZSpider a) false false)) x y = if bit x == bit y then (if bit x then a else 1) else 0.
Proof.
rewrite chain_entry big_bool /= /ekernel /bit /=.
by case: (x ord0); case: (y ord0); rewrite /= ?(mul1r, mulr1, mulr0, mul0r, addr0, add0r).
Qed.
(** an X-spider: the same between Hadamard gates *)
Lemma half : (sqrtC 2%:R)^-1 * (sqrtC 2%:R)^-1 = 2%:R^-1 :> C.
Proof. by rewrite -invfM -expr2 sqrtCK. Qed.
Lemma x_spider a (x y : basis [finType of 'I_1]) :
  entry (zx_sem (chain (XSpider a) false false)) x y = if bit x == bit y then (1 + a) / 2%:R else (1 - a) / 2%:R.
Proof.
rewrite chain_entry big_bool /= /ekernel /bit /=.
set h := (sqrtC 2%:R)^-1; have hh : h * h = 2%:R^-1 := half.
by case: (x ord0); case: (y ord0); rewrite /= ?mulN1r ?mul1r ?mulNr ?mulrN ?opprK ?hh ?mul1r addrC ?mulrDl ?mulNr ?mul1r.
Qed.
Lemma z_conjugated a : zx_sem (chain (ZSpider a) true true) = zx_sem (chain (XSpider a) false false).
Proof. by apply: mxP => x y; rewrite !chain_entry. Qed.
End Spider.
