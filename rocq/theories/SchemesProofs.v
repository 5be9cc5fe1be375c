(** Lemmas about the schemes, the cost function and the profile reader. *)
From Coq Require Import String Ascii List Bool NArith Lia Decimal DecimalString DecimalN DecimalNat DecimalPos DecimalFacts Arith.
From Verif Require Import Schemes SchemesSpec.
Import ListNotations.
Local Open Scope N_scope.

(** ** cost function *)
Lemma w64_small n : n < 2 ^ 64 -> w64 n = n.
Proof. intros H. unfold w64. apply N.mod_small. exact H. Qed.

Definition big : N := 2 ^ 56.
Lemma big_eq : big = 72057594037927936. Proof. reflexivity. Qed.
Lemma b64 : 2 ^ 64 = 18446744073709551616. Proof. reflexivity. Qed.

Ltac wsmall := repeat match goal with |- context [w64 ?t] =>
  lazymatch t with context [w64 _] => fail | _ => rewrite (w64_small t) by (rewrite ?b64; rewrite ?big_eq in *; lia) end end.

Lemma w64_sub2 nc : 2 <= nc -> nc < 2 ^ 64 -> w64 (nc + 2 ^ 64 - 2) = nc - 2.
Proof.
  intros H1 H2. unfold w64. replace (nc + 2 ^ 64 - 2) with (nc - 2 + 1 * 2 ^ 64) by lia.
  rewrite N.mod_add by (rewrite b64; lia). apply N.mod_small. lia.
Qed.

Lemma cost_S f g nc : cost_fuel (S f) g nc = cost_body (cost_fuel f) g nc. Proof. reflexivity. Qed.
Lemma cost_zero f g : plain_one g = true -> cost_fuel (S f) g 0 = Some 1.
Proof. intros H. rewrite cost_S. unfold cost_body. now rewrite H. Qed.
Lemma cost_X1 f : cost_fuel (S f) TX 1 = Some 1. Proof. reflexivity. Qed.

Lemma cost_X f nc : nc <= big + 1 -> cost_fuel (S (S f)) TX nc = Some (xcost nc).
Proof.
  intros H. rewrite cost_S. unfold cost_body, xcost. cbn [plain_one]. rewrite andb_true_r.
  destruct (nc =? 0) eqn:E0; [apply N.eqb_eq in E0; subst; reflexivity|]. apply N.eqb_neq in E0.
  destruct (nc =? 1) eqn:E1; [apply N.eqb_eq in E1; subst; reflexivity|]. apply N.eqb_neq in E1.
  rewrite !cost_zero, cost_X1 by reflexivity.
  destruct (nc <=? 1) eqn:E2; [apply N.leb_le in E2; lia|]. f_equal.
  rewrite w64_sub2 by (rewrite ?b64; rewrite ?big_eq in *; lia).
  change (w64 (w64 (w64 (2 * 1) + w64 (2 * 1)) + w64 (3 * 1))) with 7.
  change (w64 (w64 (6 * 1) + w64 (8 * 1))) with 14.
  wsmall. lia.
Qed.

Lemma xcost_le nc : nc <= big + 1 -> xcost nc <= 14 * big.
Proof. intros H. unfold xcost. destruct (nc <=? 1) eqn:E; [rewrite big_eq; lia|]. apply N.leb_gt in E. lia. Qed.
Lemma xcost_pos nc : 1 <= xcost nc.
Proof. unfold xcost. destruct (nc <=? 1) eqn:E; [lia|]. apply N.leb_gt in E. lia. Qed.
Lemma xcost_mono a b : a <= b -> xcost a <= xcost b.
Proof. intros H. unfold xcost. destruct (a <=? 1) eqn:E, (b <=? 1) eqn:E2; rewrite ?N.leb_le, ?N.leb_gt in *; lia. Qed.

Lemma lin2_small a x b y : a * x + b * y < 2 ^ 64 -> lin2 a (Some x) b (Some y) = Some (a * x + b * y).
Proof. intros H. unfold lin2. f_equal. rewrite (w64_small (a * x)), (w64_small (b * y)) by lia. apply w64_small. exact H. Qed.

Definition plain2 (g : optype) : bool :=
  match g with TU | TU2 | TV | TVdg | TRX | TRY | TH | TSX | TSXdg | TP | TS | TSdg | TT | TTdg | TRZ | TY | TZ => true | _ => false end.
Lemma cost_plain2 f g nc : nc <= big -> plain2 g = true -> cost_fuel (S (S (S f))) g nc = Some (closed_cost g nc).
Proof.
  intros H HG. pose proof (xcost_le nc ltac:(lia)) as HX. rewrite cost_S. unfold cost_body.
  assert (HP : plain_one g = true) by (destruct g; try discriminate; reflexivity). rewrite HP, andb_true_r.
  destruct (nc =? 0) eqn:E0; [destruct g; try discriminate; cbn [closed_cost]; rewrite E0; reflexivity|].
  destruct g; try discriminate; cbn [closed_cost]; rewrite E0, cost_X by lia; rewrite cost_zero by reflexivity;
    rewrite lin2_small by (rewrite b64; rewrite big_eq in *; lia); f_equal; lia.
Qed.

Theorem cost_closed g nc : nc <= big -> legacyCost g nc = Some (closed_cost g nc).
Proof.
  intros H. pose proof (xcost_le nc ltac:(lia)) as HX. pose proof (xcost_le (nc + 1) ltac:(lia)) as HX1. unfold legacyCost.
  destruct (plain2 g) eqn:HP; [now apply cost_plain2|].
  destruct g; try discriminate; rewrite ?cost_X by lia; try reflexivity;
    rewrite cost_S; unfold cost_body; cbn [plain_one closed_cost]; rewrite ?andb_false_r.
  all: try (rewrite andb_true_r; destruct (nc =? 0); reflexivity); try reflexivity.
  - rewrite cost_X1, cost_X by lia. rewrite lin2_small by (rewrite b64; rewrite big_eq in *; lia). f_equal. lia.
  - rewrite (w64_small (nc + 1)) by (rewrite b64; rewrite big_eq in *; lia). rewrite cost_X by lia.
    rewrite !cost_plain2 by (assumption || reflexivity). cbn [closed_cost].
    destruct (nc =? 0); rewrite !lin2_small by (rewrite ?b64; rewrite ?big_eq in *; lia); f_equal; lia.
  - rewrite (w64_small (nc + 1)) by (rewrite b64; rewrite big_eq in *; lia). rewrite !cost_X by lia.
    rewrite lin2_small by (rewrite b64; rewrite big_eq in *; lia). f_equal. lia.
  - rewrite (w64_small (nc + 1)) by (rewrite b64; rewrite big_eq in *; lia). rewrite !cost_X by lia.
    rewrite lin2_small by (rewrite b64; rewrite big_eq in *; lia). f_equal. lia.
Qed.

Theorem closed_pos g nc : 1 <= closed_cost g nc.
Proof.
  pose proof (xcost_pos nc). pose proof (xcost_pos (nc + 1)).
  destruct g; cbn [closed_cost]; try destruct (nc =? 0); lia.
Qed.

Theorem closed_mono g a b : a <= b -> closed_cost g a <= closed_cost g b.
Proof.
  intros H. pose proof (xcost_mono a b H). pose proof (xcost_mono (a + 1) (b + 1) ltac:(lia)). pose proof (xcost_pos b).
  destruct g; cbn [closed_cost]; try lia;
    (destruct (a =? 0) eqn:EA, (b =? 0) eqn:EB; rewrite ?N.eqb_eq, ?N.eqb_neq in *; lia).
Qed.

(** defined for every key, even those where the arithmetic wraps *)
Lemma cost_X_total f nc : cost_fuel (S (S f)) TX nc <> None.
Proof.
  rewrite cost_S. unfold cost_body. cbn [plain_one]. destruct (nc =? 0); [discriminate|]. destruct (nc =? 1); [discriminate|].
  rewrite !cost_zero, cost_X1 by reflexivity. discriminate.
Qed.
Lemma lin2_total a x b y : x <> None -> y <> None -> lin2 a x b y <> None.
Proof. destruct x, y; cbn; congruence. Qed.
Lemma cost_plain2_total f g nc : plain2 g = true -> cost_fuel (S (S (S f))) g nc <> None.
Proof.
  intros HP. rewrite cost_S. unfold cost_body. destruct ((nc =? 0) && plain_one g); [discriminate|].
  destruct g; try discriminate; (apply lin2_total; [apply cost_X_total|rewrite cost_zero by reflexivity; discriminate]).
Qed.
Theorem cost_total g nc : legacyCost g nc <> None.
Proof.
  unfold legacyCost. destruct (plain2 g) eqn:HP; [now apply cost_plain2_total|].
  destruct g; try discriminate; try (apply cost_X_total);
    rewrite cost_S; unfold cost_body; cbn [plain_one]; rewrite ?andb_false_r;
    try (destruct (nc =? 0); discriminate);
    repeat apply lin2_total; try apply cost_X_total; try (apply cost_plain2_total; reflexivity); try discriminate.
Qed.
