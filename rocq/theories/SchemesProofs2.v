(** Proportional scheme, progress, profile round trip. *)
From Coq Require Import String Ascii List Bool NArith Lia Decimal DecimalString DecimalN DecimalFacts Arith.
From Coq Require Import DecimalPos List.
From Verif Require Import Schemes SchemesSpec SchemesProofs.
Import ListNotations.
Local Open Scope N_scope.

Lemma ratio_bounds mn mx : 0 < mn -> mn <= mx -> mx < 2 ^ 63 ->
  let r := N.max (w64 (mx + mn / 2) / mn) 1 in
  1 <= r /\ 2 * (r * mn - mx) <= mn /\ 2 * (mx - r * mn) <= mn.
Proof.
  intros H1 H2 H3 r.
  assert (D2 : mn / 2 * 2 <= mn /\ mn < mn / 2 * 2 + 2).
  { pose proof (N.div_mod mn 2 ltac:(discriminate)) as HD. pose proof (N.mod_lt mn 2 ltac:(discriminate)) as HM.
    clear H1 H2 H3 r.
    revert HD HM. generalize (mn mod 2). generalize (mn / 2). intros; lia. }
  assert (HW : w64 (mx + mn / 2) = mx + mn / 2) by (apply w64_small; change (2 ^ 64) with (2 * 2 ^ 63); clear r; revert D2; generalize (mn / 2); intros; lia).
  set (q := (mx + mn / 2) / mn) in *.
  assert (DQ : q * mn <= mx + mn / 2 /\ mx + mn / 2 < q * mn + mn).
  { pose proof (N.div_mod (mx + mn / 2) mn ltac:(lia)) as HA. pose proof (N.mod_lt (mx + mn / 2) mn ltac:(lia)) as HB.
    fold q in HA. clear HW r. clearbody q. revert HA HB.
    generalize ((mx + mn / 2) mod mn). generalize (mx + mn / 2). intros. lia. }
  assert (1 <= q).
  { destruct (N.eq_dec q 0) as [E|E]; [|lia]. rewrite E in DQ. revert DQ; generalize (mn / 2); intros; lia. }
  assert (r = q) as -> by (unfold r; rewrite HW; fold q; lia).
  clear HW. clearbody q. revert D2 DQ. generalize (mn / 2). intros h D2 DQ. repeat split; lia.
Qed.

Theorem proportional_in_step fusion v n1 n2 a b : 0 < n1 -> 0 < n2 -> n1 < 2 ^ 63 -> n2 < 2 ^ 63 ->
  fusion && (v_used v =? 1) = false -> proportional_scheme fusion v n1 n2 = (a, b) ->
  1 <= a /\ 1 <= b /\
  (n2 <= n1 -> b = 1 /\ 2 * (a * n2 - n1) <= n2 /\ 2 * (n1 - a * n2) <= n2) /\
  (n1 < n2 -> a = 1 /\ 2 * (b * n1 - n2) <= n1 /\ 2 * (n2 - b * n1) <= n1).
Proof.
  intros H1 H2 H3 H4 HF H. unfold proportional_scheme in H. rewrite HF in H.
  destruct (n2 <=? n1) eqn:E.
  - apply N.leb_le in E. rewrite (N.min_r n1 n2), (N.max_l n1 n2) in H by lia. injection H as <- <-.
    destruct (ratio_bounds n2 n1 H2 E H3) as (R1 & R2 & R3). cbv zeta in *. revert R1 R2 R3. generalize (N.max (w64 (n1 + n2 / 2) / n2) 1). intros; lia.
  - apply N.leb_gt in E. rewrite (N.min_l n1 n2), (N.max_r n1 n2) in H by lia. injection H as <- <-.
    destruct (ratio_bounds n1 n2 H1 ltac:(lia) H4) as (R1 & R2 & R3). cbv zeta in *. revert R1 R2 R3. generalize (N.max (w64 (n2 + n1 / 2) / n1) 1). intros; lia.
Qed.

Lemma proportional_pos fusion v n1 n2 : 1 <= fst (proportional_scheme fusion v n1 n2) /\ 1 <= snd (proportional_scheme fusion v n1 n2).
Proof. unfold proportional_scheme. destruct (fusion && _); [cbn; lia|]. destruct (n2 <=? n1); cbn [fst snd]; lia. Qed.
Lemma gatecost_pos t fusion v : fst (gatecost_scheme t fusion v) = 1.
Proof. unfold gatecost_scheme. destruct t; [reflexivity|]. destruct (fusion && _); reflexivity. Qed.

(** ** lookup tables *)
Lemma optype_eqb_eq a b : optype_eqb a b = true <-> a = b.
Proof.
  split; [|intros <-; destruct a; cbn; auto using N.eqb_refl].
  destruct a, b; cbn; intros H; try discriminate; try reflexivity. apply N.eqb_eq in H. now subst.
Qed.
Lemma key_eqb_eq a b : key_eqb a b = true <-> a = b.
Proof.
  unfold key_eqb. rewrite andb_true_iff, optype_eqb_eq, N.eqb_eq. destruct a, b; cbn. split; [intros [-> ->]; reflexivity|].
  intros E. injection E as <- <-. auto.
Qed.
Lemma lookup_app t1 t2 k : lookup (t1 ++ t2) k = match lookup t1 k with Some c => Some c | None => lookup t2 k end.
Proof. induction t1 as [|[k' v] t1 IH]; [reflexivity|]. cbn. destruct (key_eqb k' k); [reflexivity|apply IH]. Qed.
Lemma lookup_emplace t k v k' : lookup (emplace t k v) k' =
  match lookup t k' with Some c => Some c | None => if key_eqb k k' then Some v else None end.
Proof.
  unfold emplace. destruct (lookup t k) eqn:E.
  - destruct (lookup t k') eqn:E'; [reflexivity|]. destruct (key_eqb k k') eqn:EK; [|reflexivity].
    apply key_eqb_eq in EK. subst. congruence.
  - rewrite lookup_app. cbn. destruct (lookup t k'); reflexivity.
Qed.

Theorem first_line_wins tyof ls t0 t k : read_lines tyof ls t0 = Some t ->
  lookup t k = match lookup t0 k with Some c => Some c | None => first_entry tyof ls k end.
Proof.
  revert t0. induction ls as [|l ls IH]; intros t0 H; cbn in *.
  - injection H as <-. destruct (lookup t0 k); reflexivity.
  - destruct (read_line tyof l) as [|k' c|]; [now apply IH| |discriminate].
    rewrite (IH _ H), lookup_emplace. destruct (lookup t0 k); [reflexivity|]. destruct (key_eqb k' k); reflexivity.
Qed.

Lemma read_lines_app tyof l1 l2 t : read_lines tyof (l1 ++ l2) t =
  match read_lines tyof l1 t with Some t' => read_lines tyof l2 t' | None => None end.
Proof. revert t. induction l1 as [|l l1 IH]; intros t; [reflexivity|]. cbn. destruct (read_line tyof l); auto. Qed.

(** ** strings *)
Lemma las_app a b : list_ascii_of_string (a ++ b)%string = (list_ascii_of_string a ++ list_ascii_of_string b)%list.
Proof. induction a as [|c a IH]; [reflexivity|]. cbn. now rewrite IH. Qed.
Lemma sla_las s : string_of_list_ascii (list_ascii_of_string s) = s.
Proof. induction s as [|c s IH]; [reflexivity|]. cbn. now rewrite IH. Qed.

Lemma split_line l rest cur : ~ In "010"%char l ->
  split_lines (l ++ "010"%char :: rest) cur = (List.rev cur ++ l)%list :: split_lines rest [].
Proof.
  revert cur. induction l as [|c l IH]; intros cur H.
  - cbn [app split_lines]. cbn. now rewrite app_nil_r.
  - cbn [app split_lines]. destruct (Ascii.eqb c "010") eqn:E.
    + apply Ascii.eqb_eq in E. subst. exfalso. apply H. now left.
    + rewrite IH by (intros Hi; apply H; now right). cbn [List.rev]. now rewrite <- app_assoc.
Qed.

(** value of a digit string *)
Fixpoint val (u : uint) (acc : N) : N :=
  match u with
  | Nil => acc
  | D0 u => val u (10 * acc) | D1 u => val u (10 * acc + 1) | D2 u => val u (10 * acc + 2)
  | D3 u => val u (10 * acc + 3) | D4 u => val u (10 * acc + 4) | D5 u => val u (10 * acc + 5)
  | D6 u => val u (10 * acc + 6) | D7 u => val u (10 * acc + 7) | D8 u => val u (10 * acc + 8)
  | D9 u => val u (10 * acc + 9)
  end.
Lemma val_pos u p : val u (Npos p) = Npos (Pos.of_uint_acc u p).
Proof.
  revert p. induction u; intros p; cbn [val Pos.of_uint_acc]; [reflexivity|..];
    match goal with |- val u ?t = Npos (Pos.of_uint_acc u ?q) => replace t with (Npos q) by lia end; apply IHu.
Qed.
Lemma val_zero u : val u 0 = N.of_uint u.
Proof.
  unfold N.of_uint. induction u; cbn [val Pos.of_uint]; [reflexivity|exact IHu|..]; 
  match goal with |- val u ?t = Npos (Pos.of_uint_acc u ?q) => replace t with (Npos q) by lia end; apply val_pos.
Qed.

Definition stops (rest : list ascii) : Prop := match rest with [] => True | c :: _ => digit c = None end.
Lemma read_digits_val u rest acc : stops rest ->
  read_digits (list_ascii_of_string (NilEmpty.string_of_uint u) ++ rest) acc = (val u acc, rest).
Proof.
  intros HR. revert acc. induction u; intros acc; cbn [NilEmpty.string_of_uint list_ascii_of_string app val].
  1:{ destruct rest as [|c r]; [reflexivity|]. cbn in *. now rewrite HR. }
  all: cbn [read_digits]; match goal with |- context [digit ?c] => let d := eval vm_compute in (digit c) in change (digit c) with d end; cbv iota;
    rewrite ?N.add_0_r; apply IHu.
Qed.


Lemma dec_nilempty n : exists u, dec n = NilEmpty.string_of_uint u /\ N.of_uint u = n /\ u <> Nil.
Proof.
  unfold dec. exists (N.to_uint n). pose proof (DecimalN.Unsigned.of_to n) as H.
  assert (HN : N.to_uint n <> Nil) by (destruct n as [|p]; [discriminate|apply DecimalPos.Unsigned.to_uint_nonnil]).
  split; [|auto]. unfold NilZero.string_of_uint. destruct (N.to_uint n); [contradiction|reflexivity..].
Qed.
