(** What a configured timeout counts in the flow for parameterised circuits. *)
From Coq Require Import List Bool QArith Lia Lqa.
From Verif Require Import Criterion PyParam PyParamSpec PyParamTimeSpec PyParamProofs.
Import ListNotations.
Open Scope Q_scope.

Lemma adjust_nz t d : ~ t == 0 -> adjust t d == t - d.
Proof. intros N. unfold adjust. destruct (Qeq_bool t 0) eqn:E; [apply Qeq_bool_iff in E; contradiction|reflexivity]. Qed.
Lemma negative_iff t : negative t = true <-> t < 0.
Proof. unfold negative. rewrite negb_true_iff. split; intros H. - apply Qnot_le_lt. intros L. apply Qle_bool_iff in L. congruence. - destruct (Qle_bool 0 t) eqn:E; auto. apply Qle_bool_iff in E. lra. Qed.
Lemma negative_f t : negative t = false <-> 0 <= t.
Proof. unfold negative. rewrite negb_false_iff. apply Qle_bool_iff. Qed.
Lemma counted_mono e : sensible_times e -> forall i k, counted e i <= counted e (k + i).
Proof. intros (_ & _ & P & D) i k. induction k; cbn [counted plus]; [lra|]. specialize (P (k + i)%nat). specialize (D (k + i)%nat). lra. Qed.

Lemma rounds_time e T k : sensible_times e -> forall i t rt s log, t == T - counted e i -> 0 <= t -> rt = last_instantiation e i ->
  (forall j, (i <= j <= k + i)%nat -> ~ counted e j == T) -> (forall j, (i <= j < k + i)%nat -> ~ counted e j + phase_time e j == T) ->
  (forall j, (i <= j < k + i)%nat -> ~ refutes (phase e j)) ->
  (counted e (k + i) <= T -> exists t' s' log', rounds e k i t rt s log = (inr (t', last_instantiation e (k + i), s'), log') /\ t' == T - counted e (k + i)) /\
  (T < counted e (k + i) -> exists r log', rounds e k i t rt s log = (inl r, log') /\ r_eq r = NoInformation).
Proof.
  intros ST. destruct ST as (Z & ZT & P & D). assert (ST : sensible_times e) by (repeat split; auto).
  induction k as [|k IH]; intros i t rt s log Et Lt Ert NC NI NR.
  - cbn [plus]. split; intros L; [|lra]. exists t, s, log. cbn [rounds]. rewrite Ert. auto.
  - assert (Nt : ~ t == 0) by (intros X; apply (NC i); [lia|lra]).
    assert (N1 : ~ adjust t (phase_time e i) == 0) by (rewrite adjust_nz by auto; intros X; apply (NI i); [lia|lra]).
    assert (E2 : adjust (adjust t (phase_time e i)) (cost (phase e i)) == T - counted e (S i)).
    { rewrite adjust_nz by auto. rewrite adjust_nz by auto. cbn [counted]. unfold cost, duration. unfold duration in *. lra. }
    cbn [rounds]. remember (adjust (adjust t (phase_time e i)) (cost (phase e i))) as t2 eqn:Ht2.
    destruct (negative t2) eqn:Ng.
    + apply negative_iff in Ng. assert (M := counted_mono e ST (S i) k). split; intros L.
      * exfalso. replace (S k + i)%nat with (k + S i)%nat in L by lia. lra.
      * eexists _, _. split; [reflexivity|reflexivity].
    + apply negative_f in Ng. destruct (criterion_eqb (r_eq (phase e i)) NotEquivalent) eqn:Q.
      { apply crit_eqb in Q. exfalso. apply (NR i); [lia|exact Q]. }
      replace (S k + i)%nat with (k + S i)%nat by lia. apply IH; auto; intros j J; [apply NC|apply NI|apply NR]; lia.
Qed.

Theorem timeout_exact e T n r log : 0 < T -> sensible_times e -> never_exactly e T n -> consideredEquivalent (r_eq (zx e)) = false ->
  ~ refutes (zero e) -> (forall i, (i < n)%nat -> ~ refutes (phase e i)) -> check_parameterized e T n = (r, log) ->
  (counted e n + last_instantiation e n <= T -> r_eq r = r_eq (random e)) /\ (T < counted e n + last_instantiation e n -> r_eq r = NoInformation).
Proof.
  intros T0 ST (NZ & NC & NI) ZX RZ RP E. unfold check_parameterized in E. rewrite ZX in E.
  assert (NT : ~ T == 0) by lra.
  assert (N1 : ~ adjust T (cost (zx e)) == 0) by (rewrite adjust_nz by auto; unfold cost; unfold duration in NZ; lra).
  assert (E2 : adjust (adjust T (cost (zx e))) (zero_time e) == T - counted e 0).
  { rewrite adjust_nz by auto. rewrite adjust_nz by auto. cbn [counted]. unfold cost, duration. lra. }
  remember (adjust (adjust T (cost (zx e))) (zero_time e)) as t2 eqn:Ht2.
  assert (LI : 0 <= last_instantiation e n) by (destruct ST as (_ & ? & ? & _), n; cbn; auto).
  assert (M := counted_mono e ST 0 n). rewrite Nat.add_0_r in M.
  cbv zeta in E. destruct (negative t2) eqn:Ng.
  { apply negative_iff in Ng. injection E as <- <-. split; intros L; [lra|reflexivity]. }
  apply negative_f in Ng. destruct (criterion_eqb (r_eq (zero e)) NotEquivalent) eqn:Q; [apply crit_eqb in Q; contradiction|].
  match type of E with context [rounds e n 0 t2 ?rt ?s ?l] => destruct (rounds_time e T n ST 0 t2 rt s l) as [A B] end; auto.
  { intros j J. apply NC. lia. } { intros j J. apply NI. lia. } { intros j J. apply RP. lia. }
  rewrite Nat.add_0_r in A, B. destruct (Qlt_le_dec T (counted e n)) as [L|L].
  - destruct (B L) as (r' & log' & ER & NI'). rewrite ER in E. injection E as <- <-. split; intros X; [lra|exact NI'].
  - destruct (A L) as (t' & s' & log' & ER & Et'). rewrite ER in E. injection E as <- <-.
    assert (Nt' : ~ t' == 0) by (intros X; apply (NC n); [lia|lra]).
    assert (E3 := adjust_nz t' (last_instantiation e n) Nt').
    split; intros X.
    + replace (negative (adjust t' (last_instantiation e n))) with false; [reflexivity|]. symmetry. apply negative_f. lra.
    + replace (negative (adjust t' (last_instantiation e n))) with true; [reflexivity|]. symmetry. apply negative_iff. lra.
Qed.
