(** C45, continued: what the configured timeout means in the flow for parameterised circuits. *)
From Coq Require Import List Bool QArith Lia Lqa.
From Verif Require Import Criterion PyParam PyParamSpec PyParamTimeSpec PyParamTime.
Import ListNotations.
Open Scope Q_scope.

(** If no check refutes, the answer is that of the random instantiation exactly if the ZX check, all instantiations and the checks of the
    additional rounds fit into the timeout - with the last instantiation counted twice, and the checks of the zero and the random instantiation
    not at all - and 'no information' otherwise. *)
Theorem C45_timeout_exact e T n r log : 0 < T -> sensible_times e -> never_exactly e T n -> consideredEquivalent (r_eq (zx e)) = false ->
  ~ refutes (zero e) -> (forall i, (i < n)%nat -> ~ refutes (phase e i)) -> check_parameterized e T n = (r, log) ->
  (counted e n + last_instantiation e n <= T -> r_eq r = r_eq (random e)) /\ (T < counted e n + last_instantiation e n -> r_eq r = NoInformation).
Proof. exact (timeout_exact e T n r log). Qed.
Print Assumptions C45_timeout_exact.

(** So an answer may take longer than the timeout although no single check does ... *)
Theorem C45_timeout_bounds_time_refuted :
  ~ (forall e T n r log, 0 < T -> sensible_times e -> (forall x, In x (zx e :: all_checks e n) -> duration x <= T) -> check_parameterized e T n = (r, log) ->
       r_eq r = Equivalent -> duration (zx e) + zero_time e + total duration log <= T).
Proof.
  intros H. set (z := mkPResult NoInformation 1 0 0 0 0). set (f := mkPResult Equivalent 3 0 0 0 0).
  set (e := mkPEnv z 0 f (fun _ => 0) (fun _ => f) f). specialize (H e 3 0%nat (fst (check_parameterized e 3 0)) (snd (check_parameterized e 3 0)) eq_refl).
  assert (X : 1 + 0 + 0 + (3 + 0 + (3 + 0 + 0)) <= 3); [|lra]. apply H; [| |symmetry; apply surjective_pairing|reflexivity].
  - unfold sensible_times, duration, e; cbn; repeat split; intros; vm_compute; discriminate.
  - unfold e; cbn. intros x [<-|[<-|[<-|[]]]]; vm_compute; discriminate.
Qed.
Print Assumptions C45_timeout_bounds_time_refuted.
(** ... and 'no information' may be the answer although all of it fits into the timeout and every check has an answer. *)
Theorem C45_no_information_means_timeout_refuted :
  ~ (forall e T n r log, 0 < T -> sensible_times e -> (forall x, In x (all_checks e n) -> r_eq x <> NoInformation) -> check_parameterized e T n = (r, log) ->
       consideredEquivalent (r_eq (zx e)) = false -> counted e n + duration (zero e) + duration (random e) <= T -> r_eq r <> NoInformation).
Proof.
  intros H. set (z := mkPResult NoInformation 1 0 0 0 0). set (f := mkPResult Equivalent 1 0 0 0 0).
  set (e := mkPEnv z 6 f (fun _ => 0) (fun _ => f) f). specialize (H e 10 0%nat (fst (check_parameterized e 10 0)) (snd (check_parameterized e 10 0)) eq_refl).
  refine (H _ _ (surjective_pairing _) eq_refl _ _).
  - unfold sensible_times, duration, e; cbn; repeat split; intros; vm_compute; discriminate.
  - unfold e; cbn. intros x [<-|[<-|[]]]; discriminate.
  - unfold e; vm_compute; discriminate.
  - reflexivity.
Qed.
Print Assumptions C45_no_information_means_timeout_refuted.

(** the hypotheses of C45_timeout_exact are met; the answer depends on the timeout *)
Example C45_time_example : let z := mkPResult NoInformation 1 0 0 0 0 in let f := mkPResult Equivalent 2 0 0 0 0 in let e := mkPEnv z 1 f (fun _ => 1) (fun _ => f) f in
  sensible_times e /\ never_exactly e (21 # 2) 2 /\ ~ refutes (zero e) /\ counted e 2 == 8 /\ last_instantiation e 2 == 1 /\
  r_eq (fst (check_parameterized e (21 # 2) 2)) = Equivalent /\ r_eq (fst (check_parameterized e (17 # 2) 2)) = NoInformation.
Proof.
  cbv zeta. split; [unfold sensible_times; repeat split; intros; vm_compute; discriminate|]. split.
  { unfold never_exactly. cbn [zx]. split; [vm_compute; discriminate|]. split; intros k L.
    - destruct k as [|[|[|k]]]; [vm_compute; discriminate..|lia].
    - destruct k as [|[|k]]; [vm_compute; discriminate..|lia]. }
  split; [discriminate|]. vm_compute. repeat split; reflexivity.
Qed.
