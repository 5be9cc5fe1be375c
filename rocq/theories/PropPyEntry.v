(** Properties of the Python entry points and their exceptions: C81.
    Model: PyEntry.v. Vocabulary: PyEntrySpec.v. [w] is everything the entry points call: importers, manager, Qiskit, numpy, clock. *)
From Coq Require Import String List Bool QArith ZArith Arith Lia.
From Verif Require Import Criterion PyConfig PyParam PyEntry PyEntrySpec PyEntryProofs.
Import ListNotations.
Open Scope string_scope.

Section C81.
Context {V C Q1 M X : Type}.
Variable w : world V C Q1 M X.
Implicit Types (o : object C) (c : pyconfig V) (kw : list (string * V)).

(** files and circuits without free parameters: verify() returns exactly if the keyword arguments are accepted, both circuits can be imported,
    the manager can be constructed for them under the configuration as changed by the keyword arguments, and its run returns; and then it returns
    the results of that run *)
Theorem C81_plain_returns c o1 o2 kw r : without_parameters w o1 -> without_parameters w o2 ->
  (snd (py_verify w c o1 o2 kw) = Ok r <->
   exists c' q1 q2 m, augment (convert w) c kw = (c', None) /\ imports w o1 q1 /\ imports w o2 q2 /\ construct w q1 q2 c' = Ok m /\ run w m = Ok r).
Proof.
  intros H1 H2. unfold py_verify. destruct (augment (convert w) c kw) as [c' [e|]] eqn:A; cbn [snd].
  - split; [discriminate|]. intros (c0 & q1 & q2 & m & E & _). discriminate.
  - rewrite (plain_decided w o1 o2 H1 H2). cbn [bind]. unfold check_plain. split.
    + destruct (manager w o1 o2 c') as [m| |] eqn:EM; cbn [bind]; try discriminate. intros R.
      apply manager_ok in EM as (q1 & q2 & I1 & I2 & K). exists c', q1, q2, m. auto.
    + intros (c0 & q1 & q2 & m & E & I1 & I2 & K & R). injection E as <-.
      assert (EM : manager w o1 o2 c' = Ok m) by (apply manager_ok; exists q1, q2; auto). now rewrite EM.
Qed.

(** the order of the errors. Keyword arguments come first, then the first circuit, then the second, then constructor and run *)
Theorem C81_error_keywords c o1 o2 kw e : snd (augment (convert w) c kw) = Some e -> snd (py_verify w c o1 o2 kw) = Raise (EKeyword e).
Proof. unfold py_verify. destruct (augment (convert w) c kw) as [c' [e'|]]; cbn; intros H; [now injection H as ->|discriminate]. Qed.
Theorem C81_error_first c o1 o2 kw msg : snd (augment (convert w) c kw) = None ->
  o1 <> OOther None -> o2 <> OOther None -> refused w o1 msg ->
  snd (py_verify w c o1 o2 kw) = Raise (ERuntime ("Could not import first circuit: " ++ msg)).
Proof.
  unfold py_verify. destruct (augment (convert w) c kw) as [c' [e'|]]; cbn [snd]; intros H N1 N2 F; [discriminate|].
  destruct (asked w o1 N1) as [b1 P1]. destruct (asked w o2 N2) as [b2 P2].
  unfold either_parameterized. rewrite P1. cbn [bind].
  assert (G : forall b0 : bool, bind (Ok b0) (fun b : bool => if b then py_check_parameterized w o1 o2 c' else check_plain w o1 o2 c') = Raise (ERuntime ("Could not import first circuit: " ++ msg))).
  { intros [|]; cbn [bind]; unfold py_check_parameterized, check_parameterized_zx, check_plain; now rewrite (manager_first w o1 o2 c' msg F). }
  destruct b1; [apply (G true)|]. rewrite P2. apply G.
Qed.
Theorem C81_error_second c o1 o2 kw q1 msg : snd (augment (convert w) c kw) = None ->
  o2 <> OOther None -> imports w o1 q1 -> refused w o2 msg ->
  snd (py_verify w c o1 o2 kw) = Raise (ERuntime ("Could not import second circuit: " ++ msg)).
Proof.
  unfold py_verify. destruct (augment (convert w) c kw) as [c' [e'|]]; cbn [snd]; intros H N2 I F; [discriminate|].
  destruct (asked w o2 N2) as [b2 P2].
  assert (P1 : exists b, is_parameterized w o1 = Ok b) by (inversion I; subst; cbn; eauto). destruct P1 as [b1 P1].
  unfold either_parameterized. rewrite P1. cbn [bind].
  assert (G : forall b0 : bool, bind (Ok b0) (fun b : bool => if b then py_check_parameterized w o1 o2 c' else check_plain w o1 o2 c') = Raise (ERuntime ("Could not import second circuit: " ++ msg))).
  { intros [|]; cbn [bind]; unfold py_check_parameterized, check_parameterized_zx, check_plain; now rewrite (manager_second w o1 o2 c' q1 msg I F). }
  destruct b1; [apply (G true)|]. rewrite P2. apply G.
Qed.
(** once both are imported, what the constructor or the run raises *)
Theorem C81_error_run c o1 o2 kw c' q1 q2 : without_parameters w o1 -> without_parameters w o2 ->
  augment (convert w) c kw = (c', None) -> imports w o1 q1 -> imports w o2 q2 ->
  snd (py_verify w c o1 o2 kw) = bind (construct w q1 q2 c') (run w).
Proof.
  intros H1 H2 A I1 I2. unfold py_verify. rewrite A. cbn [snd]. rewrite (plain_decided w o1 o2 H1 H2). cbn [bind]. unfold check_plain, manager.
  apply import_ok in I1, I2. now rewrite I1, I2.
Qed.

(** an object that is neither str nor QuantumCircuit (say, a pathlib.Path or a QasmQobjExperiment) is never accepted; without an attribute
    'parameters' the error is an AttributeError, not the one of the importer *)
Theorem C81_unsupported_objects c o1 o2 kw p : o1 = OOther p \/ o2 = OOther p ->
  (forall r, snd (py_verify w c o1 o2 kw) <> Ok r) /\
  (snd (augment (convert w) c kw) = None -> o1 = OOther None \/ (without_parameters w o1 /\ o2 = OOther None) ->
   snd (py_verify w c o1 o2 kw) = Raise EAttribute).
Proof.
  intros O. split.
  - intros r. unfold py_verify. destruct (augment (convert w) c kw) as [c' [e'|]]; cbn [snd]; [discriminate|].
    assert (NM : forall m, manager w o1 o2 c' <> Ok m).
    { intros m E. apply manager_ok in E as (q1 & q2 & I1 & I2 & _). destruct O as [-> | ->]; [inversion I1|inversion I2]. }
    destruct (either_parameterized w o1 o2) as [b| |]; cbn [bind]; try discriminate.
    destruct b; unfold py_check_parameterized, check_parameterized_zx, check_plain; destruct (manager w o1 o2 c') as [m| |] eqn:EM; cbn [bind]; try discriminate;
    exfalso; apply (NM m); reflexivity.
  - intros A [-> |[W ->]]; unfold py_verify; destruct (augment (convert w) c kw) as [c' [e'|]]; cbn [snd] in *; try discriminate; unfold either_parameterized; cbn [bind is_parameterized].
    + reflexivity.
    + destruct o1; cbn in *; try contradiction; rewrite ?W; reflexivity.
Qed.
(** and if the modules qiskit and qiskit.qobj cannot be imported, nothing is, not even files *)
Theorem C81_modules_needed c o1 o2 kw msg : missing w = Some msg -> forall r, snd (py_verify w c o1 o2 kw) <> Ok r.
Proof.
  intros Mi r. unfold py_verify. destruct (augment (convert w) c kw) as [c' [e'|]]; cbn [snd]; [discriminate|].
  assert (NM : manager w o1 o2 c' = Raise (ERuntime ("Could not import first circuit: " ++ msg))) by (apply manager_first; now constructor).
  destruct (either_parameterized w o1 o2) as [b| |]; cbn [bind]; try discriminate.
  destruct b; unfold py_check_parameterized, check_parameterized_zx, check_plain; rewrite NM; discriminate.
Qed.

(** parameterised circuits: the flow of C45, step by step. For every input [e] of C45's flow that agrees with the steps that succeed, the call ends
    with the first failure among the steps the flow makes, in their order, and with the flow's result if there is none *)
Theorem C81_parameterised c o1 o2 kw c' e : with_parameters w o1 o2 -> augment (convert w) c kw = (c', None) ->
  let n := count w (c' Parameterized "additional_instantiations") in
  let timeout := num w (c' Execution "timeout") in
  tells w n o1 o2 c' e ->
  snd (py_verify w c o1 o2 kw) =
  in_order (steps_made w n o1 o2 c' (consideredEquivalent (r_eq (zx e))) (length (snd (check_parameterized e timeout n))))
    (Ok (fst (check_parameterized e timeout n))).
Proof.
  intros P A n timeout T. unfold py_verify. rewrite A. cbn [snd]. rewrite (param_decided w o1 o2 P). cbn [bind].
  pose proof (flow_in_order w o1 o2 c' e T) as F. fold n timeout in F. destruct (check_parameterized e timeout n) as [r log]. exact F.
Qed.
(** the symbolic check runs the ZX checker alone, the checks of instantiated circuits run whatever is configured except the ZX checker, and each
    has its own manager under the caller's configuration *)
Theorem C81_symbolic_check c o1 o2 r : symbolic_check w o1 o2 c = Ok r <->
  exists q1 q2 m, imports w o1 q1 /\ imports w o2 q2 /\ construct w q1 q2 c = Ok m /\ run w (set_zx w true (disable_all w m)) = Ok r.
Proof.
  unfold symbolic_check, check_parameterized_zx. split.
  - destruct (manager w o1 o2 c) as [m| |] eqn:EM; cbn [bind]; try discriminate. intros R. apply manager_ok in EM as (q1 & q2 & I1 & I2 & K).
    exists q1, q2, m. auto.
  - intros (q1 & q2 & m & I1 & I2 & K & R). assert (EM : manager w o1 o2 c = Ok m) by (apply manager_ok; exists q1, q2; auto). now rewrite EM.
Qed.
Theorem C81_instantiated_check c (c1 c2 : C) n k r : instantiated_check w n (OCircuit c1) (OCircuit c2) c k = Ok r <->
  exists x i1 i2 q1 q2 m, extract w c1 c2 = Ok x /\
    ((k <= n)%nat /\ (exists t, instantiate w c1 c2 x c k = Ok (i1, i2, t)) \/ (n < k)%nat /\ instantiate_random w c1 c2 x = Ok (i1, i2)) /\
    imports w (OCircuit i1) q1 /\ imports w (OCircuit i2) q2 /\ construct w q1 q2 c = Ok m /\ run w (set_zx w false m) = Ok r.
Proof.
  unfold instantiated_check, instantiation, extraction. cbn [extract_params]. split.
  - destruct (extract w c1 c2) as [x| |]; cbn [bind]; try discriminate. intros H.
    assert (G : forall i1 i2, ((k <= n)%nat /\ (exists t, instantiate w c1 c2 x c k = Ok (i1, i2, t)) \/ (n < k)%nat /\ instantiate_random w c1 c2 x = Ok (i1, i2)) ->
      check_instantiated w i1 i2 c = Ok r -> exists x0 i1 i2 q1 q2 m, Ok x = Ok x0 /\
    ((k <= n)%nat /\ (exists t, instantiate w c1 c2 x0 c k = Ok (i1, i2, t)) \/ (n < k)%nat /\ instantiate_random w c1 c2 x0 = Ok (i1, i2)) /\
    imports w (OCircuit i1) q1 /\ imports w (OCircuit i2) q2 /\ construct w q1 q2 c = Ok m /\ run w (set_zx w false m) = Ok r).
    { intros i1 i2 W K. unfold check_instantiated in K. destruct (manager w (OCircuit i1) (OCircuit i2) c) as [m| |] eqn:EM; cbn [bind] in K; try discriminate.
      apply manager_ok in EM as (q1 & q2 & I1 & I2 & K'). exists x, i1, i2, q1, q2, m. auto 7. }
    destruct (Nat.leb_spec k n) as [L|L].
    + destruct (instantiate w c1 c2 x c k) as [[[i1 i2] t]| |] eqn:E; cbn [bind] in H; try discriminate. apply (G i1 i2); [left; eauto|exact H].
    + destruct (instantiate_random w c1 c2 x) as [[i1 i2]| |] eqn:E; cbn [bind] in H; try discriminate. apply (G i1 i2); [right; eauto|exact H].
  - intros (x & i1 & i2 & q1 & q2 & m & E & W & I1 & I2 & K & R). rewrite E. cbn [bind].
    assert (EM : manager w (OCircuit i1) (OCircuit i2) c = Ok m) by (apply manager_ok; exists q1, q2; auto).
    destruct W as [[L [t W]]|[L W]]; destruct (Nat.leb_spec k n); try lia; rewrite W; cbn [bind]; unfold check_instantiated; now rewrite EM.
Qed.
(** such an input exists for every call *)
Theorem C81_parameterised_input n o1 o2 c : exists e, tells w n o1 o2 c e.
Proof. exists (told w n o1 o2 c). exact (told_tells w n o1 o2 c). Qed.

(** a circuit with parameters against a file: the call returns only if the symbolic check finds the circuits equivalent, with that check's
    results. Otherwise it raises an AttributeError: no other verdict is ever returned *)
Theorem C81_file_against_parameterised c o1 o2 kw c' : with_parameters w o1 o2 -> (exists f, o1 = OStr f \/ o2 = OStr f) ->
  augment (convert w) c kw = (c', None) ->
  (forall r, snd (py_verify w c o1 o2 kw) = Ok r <-> symbolic_check w o1 o2 c' = Ok r /\ consideredEquivalent (r_eq r) = true) /\
  (forall r, symbolic_check w o1 o2 c' = Ok r -> consideredEquivalent (r_eq r) = false -> snd (py_verify w c o1 o2 kw) = Raise EAttribute).
Proof.
  intros P (f & O) A. unfold py_verify. rewrite A. cbn [snd]. rewrite (param_decided w o1 o2 P). cbn [bind].
  unfold py_check_parameterized, symbolic_check.
  assert (E : extract_params w o1 o2 = Raise EAttribute) by (destruct O as [-> | ->]; [reflexivity|destruct o1; reflexivity]).
  destruct (check_parameterized_zx w o1 o2 c') as [rz| |]; cbn [bind].
  - destruct (consideredEquivalent (r_eq rz)) eqn:CE; split; intros r.
    + split; [intros H; injection H as <-; auto|intros [H _]; exact H].
    + intros H F. injection H as <-. congruence.
    + rewrite E. cbn [bind]. split; [discriminate|intros [H1 H2]; injection H1 as <-; congruence].
    + rewrite E. reflexivity.
  - split; intros r; [split; [discriminate|intros [H _]; discriminate]|discriminate].
  - split; intros r; [split; [discriminate|intros [H _]; discriminate]|discriminate].
Qed.
(** the same for two circuits that do not have the same parameters, one of them possibly without any *)
Theorem C81_different_parameters {P : Type} (parameters : C -> P) c (c1 c2 : C) kw c' : strict_binding w parameters -> parameters c1 <> parameters c2 ->
  with_parameters w (OCircuit c1) (OCircuit c2) -> augment (convert w) c kw = (c', None) ->
  forall r, snd (py_verify w c (OCircuit c1) (OCircuit c2) kw) = Ok r <->
    symbolic_check w (OCircuit c1) (OCircuit c2) c' = Ok r /\ consideredEquivalent (r_eq r) = true.
Proof.
  intros S D W A r. unfold py_verify. rewrite A. cbn [snd]. rewrite (param_decided w _ _ W). cbn [bind]. unfold py_check_parameterized, symbolic_check.
  destruct (check_parameterized_zx w (OCircuit c1) (OCircuit c2) c') as [rz| |]; cbn [bind].
  - destruct (consideredEquivalent (r_eq rz)) eqn:CE.
    + split; [intros H; injection H as <-; auto|intros [H _]; exact H].
    + cbn [extract_params]. destruct (extract w c1 c2) as [x| |]; cbn [bind].
      * destruct (S c1 c2 x c' 0%nat D) as [msg ->]. cbn [bind]. split; [discriminate|intros [H1 H2]; injection H1 as <-; congruence].
      * split; [discriminate|intros [H1 H2]; injection H1 as <-; congruence].
      * split; [discriminate|intros [H1 H2]; injection H1 as <-; congruence].
  - split; [discriminate|intros [H _]; discriminate].
  - split; [discriminate|intros [H _]; discriminate].
Qed.

(** every verdict other than the symbolic one requires that all instantiations made could be imported and checked: if one of them raises the call
    raises, whatever the other checks found *)
Theorem C81_no_partial_results c o1 o2 kw c' e r k : with_parameters w o1 o2 -> augment (convert w) c kw = (c', None) ->
  let n := count w (c' Parameterized "additional_instantiations") in
  let timeout := num w (c' Execution "timeout") in
  tells w n o1 o2 c' e -> snd (py_verify w c o1 o2 kw) = Ok r ->
  r = fst (check_parameterized e timeout n) /\
  (consideredEquivalent (r_eq (zx e)) = false -> (k < length (snd (check_parameterized e timeout n)))%nat -> exists rk, instantiated_check w n o1 o2 c' k = Ok rk).
Proof.
  intros P A n timeout T H. rewrite (C81_parameterised c o1 o2 kw c' e P A T) in H. fold n timeout in H. apply in_order_Ok in H as [E F]. split; [exact E|].
  intros N K. specialize (F (ending (instantiated_check w n o1 o2 c' k))).
  assert (I : In (ending (instantiated_check w n o1 o2 c' k))
    (steps_made w n o1 o2 c' (consideredEquivalent (r_eq (zx e))) (length (snd (check_parameterized e timeout n))))).
  { unfold steps_made. rewrite N. right. unfold steps_with. apply in_or_app. right. apply in_concat.
    exists [ending (instantiation w n o1 o2 c' k); ending (instantiated_check w n o1 o2 c' k)]. split; [|right; left; reflexivity].
    apply in_map_iff. exists k. split; [reflexivity|]. apply in_seq. lia. }
  specialize (F I). destruct (instantiated_check w n o1 o2 c' k) as [rk| |]; [now exists rk|discriminate|discriminate].
Qed.

(** verify_compilation() ends like verify() with the same circuits on the configuration object with keyword arguments, gate-cost scheme and
    profile filled in, leaves that configuration behind, and warns once per QuantumCircuit without measurements - never for files *)
Theorem C81_compilation c o1 o2 level m kw c' : augment (convert w) c kw = (c', None) ->
  let c'' := setattr (setattr (setattr (setattr c' Application "construction_scheme" (gate_cost w)) Application "simulation_scheme" (gate_cost w))
               Application "alternating_scheme" (gate_cost w)) Application "profile" (path w (generate_profile_name level m)) in
  let '(c1, warnings, r) := py_verify_compilation w c o1 o2 level m kw in
  c1 = c'' /\ r = snd (py_verify w c'' o1 o2 []) /\
  warnings = length (filter (fun o => match o with OCircuit q => negb (contains_measure w q) | _ => false end) [o1; o2]).
Proof.
  intros A c''. unfold py_verify_compilation. rewrite A. fold c''. unfold py_verify at 1. cbn [augment].
  split; [reflexivity|]. split; [reflexivity|]. cbn [filter]. unfold warns.
  destruct o1 as [f1|q1|p1], o2 as [f2|q2|p2]; try reflexivity; repeat match goal with |- context [contains_measure w ?q] => destruct (contains_measure w q); cbn end; reflexivity.
Qed.
Theorem C81_compilation_refused c o1 o2 level m kw c' e : augment (convert w) c kw = (c', Some e) ->
  py_verify_compilation w c o1 o2 level m kw = (c', 0%nat, Raise (EKeyword e)).
Proof. intros A. unfold py_verify_compilation. now rewrite A. Qed.
End C81.
Print Assumptions C81_plain_returns.
Print Assumptions C81_error_keywords.
Print Assumptions C81_error_first.
Print Assumptions C81_error_second.
Print Assumptions C81_error_run.
Print Assumptions C81_unsupported_objects.
Print Assumptions C81_modules_needed.
Print Assumptions C81_parameterised.
Print Assumptions C81_symbolic_check.
Print Assumptions C81_instantiated_check.
Print Assumptions C81_parameterised_input.
Print Assumptions C81_file_against_parameterised.
Print Assumptions C81_different_parameters.
Print Assumptions C81_no_partial_results.
Print Assumptions C81_compilation.
Print Assumptions C81_compilation_refused.

(** a world in which circuits are pairs (number of parameters, identity); the file "a.qasm" contains circuit 7, no other file exists; a manager
    is the pair of circuits with the configured timeout and whether the ZX checker alone runs; circuits are equivalent if their identities are *)
Definition toy_run (m : nat * nat * bool) : result presult :=
  let '(a, b, zx) := m in
  if Nat.eqb a b then Ok (mkPResult Equivalent 1 1 0 0 0)
  else if zx then Ok (mkPResult NoInformation 1 1 0 0 0)
  else if Nat.eqb a 13%nat then Raise (ERuntime "unlucky") else Ok (mkPResult NotEquivalent 1 1 1 1 0).
Definition toy : world nat (nat * nat) nat (nat * nat * bool) nat :=
  mkWorld nat (nat * nat) nat (nat * nat * bool) nat (fun _ _ v => Some v) 77%nat (fun _ => 88%nat) (fun v => inject_Z (Z.of_nat v)) (fun v => v) None
    (fun f => if String.eqb f "a.qasm" then inl 7%nat else inr "no such file") (fun c => inl (snd c))
    (fun a b c => if Nat.ltb 100%nat a then Raise (ERuntime "too big") else Ok (a, b, false))
    (fun m => m) (fun b m => (fst m, b)) toy_run (fun c => negb (Nat.eqb (fst c) 0%nat)) (fun c => Nat.even (snd c))
    (fun c1 c2 => Ok (fst c1)) (fun c1 c2 x c k => if Nat.eqb (fst c1) (fst c2) then Ok (c1, c2, 1) else Raise (EOther "CircuitError"))
    (fun c1 c2 x => if Nat.eqb (fst c1) (fst c2) then Ok (c1, c2) else Raise (EOther "CircuitError")).
Definition zero_cfg : pyconfig nat := fun _ _ => 0%nat.
Definition call o1 o2 kw := snd (py_verify toy zero_cfg o1 o2 kw).

Example C81_example_plain :
  call (OStr "a.qasm") (OCircuit (0, 7)%nat) [("timeout", 3%nat)] = Ok (mkPResult Equivalent 1 1 0 0 0) /\
  call (OStr "a.qasm") (OCircuit (0, 8)%nat) [] = Ok (mkPResult NotEquivalent 1 1 1 1 0) /\
  call (OStr "b.qasm") (OOther (Some false)) [] = Raise (ERuntime "Could not import first circuit: no such file") /\
  call (OStr "a.qasm") (OStr "b.qasm") [] = Raise (ERuntime "Could not import second circuit: no such file") /\
  call (OStr "b.qasm") (OStr "b.qasm") [("timeot", 3%nat)] = Raise (EKeyword (ValueError "timeot")) /\
  call (OStr "b.qasm") (OOther None) [] = Raise EAttribute /\
  call (OCircuit (0, 200)%nat) (OStr "a.qasm") [] = Raise (ERuntime "too big") /\
  call (OCircuit (0, 13)%nat) (OStr "a.qasm") [] = Raise (ERuntime "unlucky").
Proof. vm_compute. repeat split. Qed.
Example C81_example_parameterised :
  call (OCircuit (2, 7)%nat) (OStr "a.qasm") [] = Ok (mkPResult Equivalent 1 1 0 0 0) /\
  call (OCircuit (2, 8)%nat) (OStr "a.qasm") [] = Raise EAttribute /\
  call (OStr "a.qasm") (OCircuit (2, 8)%nat) [] = Raise EAttribute /\
  call (OCircuit (2, 8)%nat) (OCircuit (0, 9)%nat) [] = Raise (EOther "CircuitError") /\
  call (OCircuit (2, 8)%nat) (OCircuit (2, 9)%nat) [] = Ok (mkPResult NotEquivalent 2 2 1 1 1) /\
  call (OCircuit (2, 8)%nat) (OCircuit (2, 9)%nat) [("timeout", 1%nat)] = Ok (mkPResult NoInformation 1 1 0 0 1) /\
  call (OCircuit (2, 13)%nat) (OCircuit (2, 9)%nat) [] = Raise (ERuntime "unlucky") /\
  strict_binding toy (fun c => fst c).
Proof.
  vm_compute. repeat (split; [reflexivity|]). intros [a1 b1] [a2 b2] x c k H. cbn in *.
  assert (E : (a1 =? a2)%nat = false) by (apply Nat.eqb_neq; exact H). unfold Nat.eqb in E. rewrite E. now exists "CircuitError".
Qed.
Example C81_example_compilation :
  py_verify_compilation toy zero_cfg (OCircuit (0, 7)%nat) (OStr "a.qasm") 1 NoAncilla [] =
    (fst (fst (py_verify_compilation toy zero_cfg (OCircuit (0, 7)%nat) (OStr "a.qasm") 1 NoAncilla [])), 1%nat, Ok (mkPResult Equivalent 1 1 0 0 0)).
Proof. reflexivity. Qed.
