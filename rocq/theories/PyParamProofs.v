From Coq Require Import List Bool QArith Lia Lqa.
From Verif Require Import Criterion PyParam PyParamSpec.
Import ListNotations.

Lemma crit_eqb c d : criterion_eqb c d = true <-> c = d.
Proof. destruct c, d; cbn; split; congruence. Qed.
Lemma crit_eqb_f c d : criterion_eqb c d = false <-> c <> d.
Proof. destruct c, d; cbn; split; congruence. Qed.

Definition covers (s : stats) (z : presult) (l : list presult) : Prop :=
  t_prep s == r_prep z + total r_prep l /\ t_run s == r_check z + total r_check l /\ t_started s == r_started z + total r_started l /\ t_finished s == r_performed z + total r_performed l.
Lemma total_app f l l' : total f (l ++ l') == total f l + total f l'.
Proof. unfold total. induction l as [|r l IH]; cbn [app fold_right]; [ring|]. rewrite IH. ring. Qed.
Lemma covers_step s z l r : covers s z l -> covers (update s r) z (l ++ [r]).
Proof.
  intros (H1 & H2 & H3 & H4). unfold covers, update; cbn [t_prep t_run t_started t_finished]. rewrite !total_app.
  unfold total at 2 4 6 8. cbn [fold_right]. rewrite H1, H2, H3, H4. repeat split; ring.
Qed.

Lemma rounds_spec e z k : forall i t rt s log out log', covers s z log -> rounds e k i t rt s log = (out, log') ->
  exists m, (m <= k)%nat /\ log' = log ++ map (phase e) (seq i m) /\
  match out with
  | inr (_, _, s') => m = k /\ (forall j, (i <= j < i + k)%nat -> ~ refutes (phase e j)) /\ covers s' z log'
  | inl r => exists m', m = S m' /\ r_inst r = (i + m' + 2)%nat /\ (forall j, (i <= j < i + m')%nat -> ~ refutes (phase e j)) /\
      (r_eq r = NoInformation \/ (r_eq r = NotEquivalent /\ refutes (phase e (i + m')) /\
        r_check r == r_check z + total r_check log' /\ r_prep r == r_prep z + total r_prep log' /\ r_started r == r_started z + total r_started log' /\ r_performed r == r_performed z + total r_performed log'))
  end.
Proof.
  induction k as [|k IH]; intros i t rt s log out log' C E; cbn [rounds] in E.
  - injection E as <- <-. exists 0%nat. cbn [seq map]. rewrite app_nil_r. split; [lia|]. split; auto. split; auto. split; auto. intros j J; lia.
  - destruct (negative _).
    + injection E as <- <-. exists 1%nat. split; [lia|]. split; [reflexivity|]. exists 0%nat. split; auto. split; [cbn; lia|]. split; [intros j J; lia|]. now left.
    + pose proof (covers_step s z log (phase e i) C) as C'. destruct (criterion_eqb (r_eq (phase e i)) NotEquivalent) eqn:N.
      * apply crit_eqb in N. injection E as <- <-. exists 1%nat. split; [lia|]. split; [reflexivity|]. exists 0%nat. split; auto. split; [cbn; lia|]. split; [intros j J; lia|].
        right. rewrite Nat.add_0_r. destruct C' as (C1 & C2 & C3 & C4). split; [exact N|]. split; [exact N|]. auto.
      * apply crit_eqb_f in N. apply IH in E; auto. destruct E as (m & Lm & -> & H). exists (S m). split; [lia|]. split; [cbn [seq map]; now rewrite <- app_assoc|].
        destruct out as [r|[[t' rt'] s']].
        -- destruct H as (m' & -> & I & R & D). exists (S m'). split; auto. split; [lia|]. split.
           ++ intros j J. destruct (Nat.eq_dec j i) as [->|Nj]; [exact N|]. apply R. lia.
           ++ replace (i + S m')%nat with (S i + m')%nat by lia. exact D.
        -- destruct H as (-> & R & D). split; auto. split; auto. intros j J. destruct (Nat.eq_dec j i) as [->|Nj]; [exact N|]. apply R. lia.
Qed.

Definition agrees (r : presult) (z : presult) (log : list presult) : Prop :=
  r_check r == r_check z + total r_check log /\ r_prep r == r_prep z + total r_prep log /\ r_started r == r_started z + total r_started log /\ r_performed r == r_performed z + total r_performed log.

(* the four ways in which the flow ends *)
Inductive ending (e : penv) (n : nat) (r : presult) (log : list presult) : Prop :=
| EZX : consideredEquivalent (r_eq (zx e)) = true -> r = zx e -> log = [] -> ending e n r log
| EFirst : consideredEquivalent (r_eq (zx e)) = false -> log = [] -> r_eq r = NoInformation -> r_inst r = 1%nat -> ending e n r log
| EStop m : consideredEquivalent (r_eq (zx e)) = false -> (m <= n)%nat -> log = zero e :: map (phase e) (seq 0 m) -> r_inst r = S m ->
    (forall x, In x (removelast log) -> ~ refutes x) ->
    (r_eq r = NoInformation /\ (0 < m)%nat \/ (r_eq r = NotEquivalent /\ refutes (last log (zx e)) /\ agrees r (zx e) log)) -> ending e n r log
| EAll : consideredEquivalent (r_eq (zx e)) = false -> log = all_checks e n -> r_inst r = (n + 2)%nat -> (forall x, In x (removelast log) -> ~ refutes x) ->
    r_eq r = r_eq (random e) \/ r_eq r = NoInformation -> agrees r (zx e) log -> ending e n r log.

Lemma ending_ok e T n r log : check_parameterized e T n = (r, log) -> ending e n r log.
Proof.
  unfold check_parameterized. destruct (consideredEquivalent (r_eq (zx e))) eqn:Z; [intros X; injection X as <- <-; now apply EZX|].
  set (s0 := update _ (zx e)). assert (C0 : covers s0 (zx e) []) by (unfold covers, s0, total, update; cbn; repeat split; ring).
  destruct (negative _); [intros X; injection X as <- <-; now apply EFirst|].
  pose proof (covers_step s0 (zx e) [] (zero e) C0) as C1. cbn [app] in C1.
  destruct (criterion_eqb (r_eq (zero e)) NotEquivalent) eqn:N.
  - apply crit_eqb in N. intros X; injection X as <- <-. apply (EStop _ _ _ _ 0); [auto|lia|auto|auto|intros x []|]. right. cbn [write r_eq last]. destruct C1 as (A & B & C & D). repeat split; auto.
  - apply crit_eqb_f in N. destruct (rounds _ _ _ _ _ _ _) as [out log'] eqn:E. apply (rounds_spec e (zx e)) in E; auto.
    destruct E as (m & Lm & El & H). destruct out as [r'|[[t' rt'] s']].
    + intros X; injection X as <- <-. destruct H as (m' & -> & I & R & D). apply (EStop _ _ _ _ (S m')); auto.
      * rewrite I. lia.
      * rewrite El, seq_S, map_app. cbn [map app]. change (zero e :: map (phase e) (seq 0 m') ++ [phase e (0 + m')]) with ((zero e :: map (phase e) (seq 0 m')) ++ [phase e (0 + m')]).
        rewrite removelast_last. intros x [<-|Ix]; [exact N|]. apply in_map_iff in Ix as (j & <- & J). apply in_seq in J. apply R. lia.
      * destruct D as [D|(D1 & D2 & D3)]; [left; split; auto; lia|right]. split; auto. split; [|exact D3]. rewrite El, seq_S, map_app. cbn [map app].
        change (zero e :: map (phase e) (seq 0 m') ++ [phase e (0 + m')]) with ((zero e :: map (phase e) (seq 0 m')) ++ [phase e (0 + m')]). rewrite last_last. exact D2.
    + destruct H as (-> & R & C'). intros X; injection X as <- <-.
      assert (A0 : forall b : bool, let res := if b then no_info (random e) else random e in covers (update s' res) (zx e) (log' ++ [random e])).
      { intros b. pose proof (covers_step s' (zx e) log' (random e) C') as (X1 & X2 & X3 & X4). destruct b; cbn zeta; repeat split; auto. }
      specialize (A0 (negative (adjust t' rt'))). cbn zeta in A0. set (res := if negative _ then _ else _) in *.
      apply EAll; auto.
      * rewrite El. reflexivity.
      * rewrite removelast_last, El. intros x Ix. cbn in Ix. destruct Ix as [<-|Ix]; [exact N|]. apply in_map_iff in Ix as (j & <- & J). apply in_seq in J. apply R. lia.
      * unfold res. destruct (negative _); cbn; auto.
      * destruct A0 as (X1 & X2 & X3 & X4). repeat split; cbn [write r_check r_prep r_started r_performed]; auto.
Qed.

Lemma adjust0 d t : t == 0 -> adjust t d == 0.
Proof. intros H. unfold adjust. apply Qeq_bool_iff in H. now rewrite H. Qed.
Lemma negative0 t : t == 0 -> negative t = false.
Proof. intros H. unfold negative. apply negb_false_iff, Qle_bool_iff. rewrite H. lra. Qed.
Lemma rounds_notimeout e k : forall i t rt s log r log', t == 0 -> rounds e k i t rt s log = (inl r, log') -> r_eq r = NotEquivalent.
Proof.
  induction k as [|k IH]; intros i t rt s log r log' T E; cbn [rounds] in E; [discriminate|].
  assert (T' : adjust (adjust t (phase_time e i)) (cost (phase e i)) == 0) by now apply adjust0, adjust0.
  rewrite (negative0 _ T') in E. destruct (criterion_eqb _ _) eqn:N; [injection E as <- <-; now apply crit_eqb in N|]. eauto.
Qed.
Lemma rounds_inr_timeout e k : forall i t rt s log t' rt' s' log', t == 0 -> rounds e k i t rt s log = (inr (t', rt', s'), log') -> t' == 0.
Proof.
  induction k as [|k IH]; intros i t rt s log t' rt' s' log' T E; cbn [rounds] in E; [now injection E as <- <- <- <-|].
  assert (T' : adjust (adjust t (phase_time e i)) (cost (phase e i)) == 0) by now apply adjust0, adjust0.
  rewrite (negative0 _ T') in E. destruct (criterion_eqb _ _); [discriminate|]. eauto.
Qed.
Lemma no_timeout e n r log : consideredEquivalent (r_eq (zx e)) = false -> check_parameterized e 0 n = (r, log) ->
  (exists x, In x (all_checks e n) /\ refutes x) /\ r_eq r = NotEquivalent \/
  (forall x, In x (all_checks e n) -> ~ refutes x) /\ r_eq r = r_eq (random e) /\ log = all_checks e n.
Proof.
  intros Z E. pose proof (ending_ok e 0 n r log E) as H. unfold check_parameterized in E. rewrite Z in E.
  rewrite (negative0 (adjust (adjust 0 (cost (zx e))) (zero_time e))) in E by (apply adjust0, adjust0; reflexivity).
  destruct (criterion_eqb (r_eq (zero e)) NotEquivalent) eqn:N.
  - apply crit_eqb in N. injection E as <- <-. left. split; [|exact N]. exists (zero e). split; [now left|exact N].
  - destruct (rounds _ _ _ _ _ _ _) as [[r'|[[t' rt'] s']] log'] eqn:ER; injection E as <- <-.
    + apply rounds_notimeout in ER; [|apply adjust0, adjust0; reflexivity]. left. split; auto.
      destruct H as [Z' | Z' -> | m _ Lm El I R D | _ El I R D A]; try congruence.
      * destruct D as [[D _]|(_ & D & _)]; [congruence|]. exists (last log' (zx e)). split; [|exact D]. rewrite El. unfold all_checks.
        assert (X : In (last (zero e :: map (phase e) (seq 0 m)) (zx e)) (zero e :: map (phase e) (seq 0 m))).
        { destruct (@exists_last _ (zero e :: map (phase e) (seq 0 m))) as (l' & a & ->); [discriminate|]. rewrite last_last. apply in_app_iff. right. now left. }
        destruct X as [X|X]; [now left|]. right. apply in_app_iff. left. apply in_map_iff in X as (j & <- & J). apply in_map. apply in_seq in J. apply in_seq. lia.
      * destruct D as [D|D]; [|congruence]. exists (random e). split; [unfold all_checks; right; apply in_app_iff; right; now left|]. unfold refutes. congruence.
    + apply rounds_inr_timeout in ER; [|apply adjust0, adjust0; reflexivity]. rewrite (negative0 (adjust t' rt')) in * by (now apply adjust0). cbn [write r_eq].
      assert (El : log' ++ [random e] = all_checks e n /\ forall x, In x log' -> ~ refutes x).
      { destruct H as [Z' | Z' Q | m _ Lm El I R D | _ El I R D A]; try congruence; [destruct log'; discriminate| |split; auto; intros x Ix; apply R; now rewrite removelast_last].
        cbn [write r_inst] in I. lia. }
      destruct El as [El R]. destruct (criterion_eqb (r_eq (random e)) NotEquivalent) eqn:NR.
      * apply crit_eqb in NR. left. split; auto. exists (random e). split; [|exact NR]. rewrite <- El. apply in_app_iff. right. now left.
      * apply crit_eqb_f in NR. right. split; [|auto]. intros x. rewrite <- El, in_app_iff. intros [Ix|[<-|[]]]; [auto|exact NR].
Qed.

Lemma timeout_stops e T n : consideredEquivalent (r_eq (zx e)) = false -> 0 < T -> T < cost (zx e) -> 0 <= zero_time e -> snd (check_parameterized e T n) = [].
Proof.
  intros Z P L Z0. unfold check_parameterized. rewrite Z.
  assert (E1 : Qeq_bool T 0 = false). { destruct (Qeq_bool T 0) eqn:X; auto. apply Qeq_bool_iff in X. lra. }
  unfold adjust at 2. rewrite E1. unfold adjust.
  destruct (Qeq_bool (T - cost (zx e)) 0) eqn:X; [apply Qeq_bool_iff in X; lra|].
  assert (N : negative (T - cost (zx e) - zero_time e) = true).
  { unfold negative. destruct (Qle_bool 0 _) eqn:Y; auto. apply Qle_bool_iff in Y. lra. }
  now rewrite N.
Qed.

(** ** the linear system *)
Lemma existsb_in p l : existsb (Nat.eqb p) l = true <-> In p l.
Proof. rewrite existsb_exists. split; [intros (x & I & E); apply Nat.eqb_eq in E; now subst|intros I; exists p; split; auto; apply Nat.eqb_refl]. Qed.
Lemma sum_one k p n s : fold_right (fun i acc => k i * one_map p i + acc) 0 (seq s n) == if (s <=? p)%nat && (p <? s + n)%nat then k p else 0.
Proof.
  revert s. induction n as [|n IH]; intros s; cbn [seq fold_right].
  - destruct (Nat.leb_spec s p), (Nat.ltb_spec p (s + 0)); cbn; try lra; lia.
  - rewrite IH. unfold one_map. destruct (Nat.eqb_spec s p) as [->|N].
    + destruct (Nat.leb_spec (S p) p); [lia|]. destruct (Nat.leb_spec p p), (Nat.ltb_spec p (p + S n)); cbn [andb]; try lia. ring.
    + destruct (Nat.leb_spec (S s) p), (Nat.leb_spec s p), (Nat.ltb_spec p (S s + n)), (Nat.ltb_spec p (s + S n)); cbn [andb]; try lia; ring.
Qed.
Lemma sum_zero k n s : fold_right (fun i acc => k i * zero_map i + acc) 0 (seq s n) == 0.
Proof. revert s. induction n as [|n IH]; intros s; cbn [seq fold_right]; [reflexivity|]. rewrite IH. unfold zero_map. ring. Qed.
Lemma dot_map f (a : nat -> Q) n s : dot (map f (seq s n)) a s == fold_right (fun i acc => f i * a i + acc) 0 (seq s n).
Proof. revert s. induction n as [|n IH]; intros s; cbn; [reflexivity|]. now rewrite IH. Qed.
Lemma sum_ext f g (a : nat -> Q) l : (forall i, In i l -> f i == g i) -> fold_right (fun i acc => f i * a i + acc) 0 l == fold_right (fun i acc => g i * a i + acc) 0 l.
Proof. induction l as [|i l IH]; intros H; cbn; [reflexivity|]. rewrite IH by (intros; apply H; now right). rewrite (H i) by now left. reflexivity. Qed.
Lemma row_spec n x a : affine_below n x -> dot (map (entry x) (seq 0 n)) a 0 == x_value x a + offset x.
Proof.
  intros (c & k & K0 & Kn & V). rewrite dot_map. unfold offset. rewrite !V, sum_zero.
  rewrite (sum_ext (entry x) k a); [ring|]. intros i I. apply in_seq in I. unfold entry, offset.
  destruct (existsb (Nat.eqb i) (x_params x)) eqn:X.
  - rewrite !V, sum_one, sum_zero. destruct (Nat.leb_spec 0 i), (Nat.ltb_spec i (0 + n)); cbn [andb]; try lia. ring.
  - symmetry. apply K0. intros In'. apply existsb_in in In'. congruence.
Qed.
Lemma system_spec n xs phases a : Forall (affine_below n) xs -> length phases = length xs ->
  solves (equs n xs) (map (fun p => fst p + snd p) (combine phases (offsets xs))) a <-> Forall2 (fun x v => x_value x a == v) xs phases.
Proof.
  intros F. revert phases. induction F as [|x xs H F IH]; intros [|v phases] L; cbn in L; try lia.
  - split; constructor.
  - cbn [equs offsets map combine]. unfold solves in *. split; intros X; inversion X; subst; constructor.
    + rewrite row_spec in H3 by auto. cbn [fst snd] in H3. lra.
    + apply IH; auto.
    + rewrite row_spec by auto. cbn [fst snd]. lra.
    + apply IH; auto.
Qed.
Lemma system_zero n xs a : Forall (affine_below n) xs -> solves (equs n xs) (offsets xs) a <-> Forall (fun x => x_value x a == 0) xs.
Proof.
  intros F. induction F as [|x xs H F IH]; [split; constructor|]. cbn [equs offsets map]. unfold solves in *. split; intros X; inversion X; subst; constructor.
  - rewrite row_spec in H3 by auto. lra.
  - now apply IH.
  - rewrite row_spec by auto. lra.
  - now apply IH.
Qed.
