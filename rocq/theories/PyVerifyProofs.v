(** A configuration object that is used for several calls. *)
From Coq Require Import String List Bool ZArith.
From Verif Require Import PyConfig PyConfigProofs PyVerify PyVerifySpec.
Import ListNotations.
Local Open Scope string_scope.

Section P.
Variables V C R : Type.
Variable convert : sect -> string -> V -> option V.
Variable gate_cost : V.
Variable path : string -> V.
Variable default : pyconfig V.
Variable parameterised : C -> bool.
Variable check_parameterized : C -> C -> pyconfig V -> R.
Variable check : C -> C -> pyconfig V -> R.
Notation serve := (serve convert gate_cost path default parameterised check_parameterized check).
Notation history := (history convert gate_cost path default parameterised check_parameterized check).
Notation verify := (verify convert parameterised check_parameterized check).

Lemma verify_config c c1 c2 kw : fst (verify c c1 c2 kw) = fst (augment convert c kw).
Proof. unfold PyVerify.verify. destruct (augment convert c kw) as [c' [e|]]; reflexivity. Qed.
Lemma serve_config c q : fst (serve c q) = if q_shared q then
  match q_flow q with None => fst (augment convert c (q_kwargs q)) | Some (l, m) => fst (verify_compilation convert gate_cost path c (q_kwargs q) l m) end else c.
Proof.
  unfold PyVerify.serve. destruct (q_flow q) as [[l m]|].
  - unfold verify_comp. destruct (verify_compilation convert gate_cost path (if q_shared q then c else default) (q_kwargs q) l m) as [c' [e|]] eqn:E.
    + destruct (q_shared q); [now rewrite E|reflexivity].
    + destruct (verify c' (q_c1 q) (q_c2 q) []) as [c'' o] eqn:F. assert (X := verify_config c' (q_c1 q) (q_c2 q) []). rewrite F in X. cbn in X.
      destruct (q_shared q); [now rewrite E|reflexivity].
  - destruct (verify _ _ _ _) as [c' o] eqn:F. assert (X := verify_config (if q_shared q then c else default) (q_c1 q) (q_c2 q) (q_kwargs q)). rewrite F in X. cbn in X.
    destruct (q_shared q); [exact X|reflexivity].
Qed.
Lemma flow_other c kw l m s k : ~ In k flow_options -> fst (verify_compilation convert gate_cost path c kw l m) s k = fst (augment convert c kw) s k.
Proof.
  intros N. unfold verify_compilation. destruct (augment convert c kw) as [c1 [e|]]; [reflexivity|]. cbn [fst]. rewrite !get_set.
  destruct (sect_eqb s Application); [|reflexivity]. cbn [andb].
  repeat match goal with |- context [String.eqb k ?x] => destruct (String.eqb_spec k x) as [->|_]; [exfalso; apply N; cbn; tauto|] end. reflexivity.
Qed.
Lemma serve_leaves c q s k : leaves_alone k q -> fst (serve c q) s k = c s k.
Proof.
  intros H. rewrite serve_config. destruct (q_shared q) eqn:S; [|reflexivity]. destruct H as [H|[H1 H2]]; [congruence|].
  destruct (q_flow q) as [[l m]|]; [destruct H2 as [H2|H2]; [discriminate|]; rewrite flow_other by exact H2|]; now apply augment_other.
Qed.
Lemma history_leaves qs : forall c s k, Forall (leaves_alone k) qs -> fst (history c qs) s k = c s k.
Proof.
  induction qs as [|q qs IH]; intros c s k H; [reflexivity|]. inversion H as [|? ? H1 H2]; subst. cbn [PyVerify.history].
  assert (X := serve_leaves c q s k H1). destruct (serve c q) as [c' o]. cbn [fst] in X. assert (Y := IH c' s k H2).
  destruct (history c' qs) as [c'' os]. cbn [fst] in *. congruence.
Qed.
Lemma history_app qs qs' : forall c, history c (qs ++ qs') = let (c', os) := history c qs in let (c'', os') := history c' qs' in (c'', (os ++ os')%list).
Proof.
  induction qs as [|q qs IH]; intros c; cbn [PyVerify.history List.app].
  - destruct (history c qs'); reflexivity.
  - destruct (serve c q) as [c1 o]. rewrite IH. destruct (history c1 qs) as [c2 os]. destruct (history c2 qs'). reflexivity.
Qed.
Lemma history_length qs : forall c, length (snd (history c qs)) = length qs.
Proof. induction qs as [|q qs IH]; intros c; cbn [PyVerify.history]; [reflexivity|]. destruct (serve c q) as [c1 o]. specialize (IH c1). destruct (history c1 qs). cbn in *. now rewrite IH. Qed.
Lemma history_after c qs q qs' : Forall (fun q => True) qs ->
  exists c0, c0 = fst (history c qs) /\ fst (history c (qs ++ q :: qs')) = fst (history (fst (serve c0 q)) qs') /\ nth_error (snd (history c (qs ++ q :: qs'))) (length qs) = Some (snd (serve c0 q)).
Proof.
  intros _. exists (fst (history c qs)). split; [reflexivity|]. rewrite history_app. assert (L := history_length qs c). destruct (history c qs) as [c0 os]. cbn [fst snd] in *.
  cbn [PyVerify.history]. destruct (serve c0 q) as [c1 o]. cbn [fst snd]. destruct (history c1 qs') as [c2 os']. cbn [fst snd]. split; [reflexivity|].
  rewrite nth_error_app2, <- L, Nat.sub_diag by (rewrite L; apply le_n). reflexivity.
Qed.
Lemma serve_accepted c q r : snd (serve c q) = Returned r -> exists c', 
  (match q_flow q with None => augment convert (if q_shared q then c else default) (q_kwargs q)
   | Some (l, m) => verify_compilation convert gate_cost path (if q_shared q then c else default) (q_kwargs q) l m end) = (c', None) /\
  r = (if parameterised (q_c1 q) || parameterised (q_c2 q) then check_parameterized (q_c1 q) (q_c2 q) c' else check (q_c1 q) (q_c2 q) c') /\
  fst (serve c q) = if q_shared q then c' else c.
Proof.
  intros H. assert (F := serve_config c q). unfold PyVerify.serve in *. destruct (q_flow q) as [[l m]|].
  - unfold verify_comp in *. destruct (verify_compilation convert gate_cost path (if q_shared q then c else default) (q_kwargs q) l m) as [c' [e|]] eqn:E; [discriminate H|].
    exists c'. split; [reflexivity|]. unfold PyVerify.verify in *. cbn [augment snd fst] in *. injection H as <-. split; reflexivity.
  - unfold PyVerify.verify in *. destruct (augment convert (if q_shared q then c else default) (q_kwargs q)) as [c' [e|]] eqn:E; [discriminate H|].
    exists c'. split; [reflexivity|]. cbn [snd fst] in *. injection H as <-. split; reflexivity.
Qed.
End P.
