(** Keyword arguments of the Python layer: C47, C48. *)
From Coq Require Import String List Bool ZArith Lia.
From Verif Require Import PyConfig PyConfigProofs.
Import ListNotations.
Open Scope string_scope.

(** C47. No option belongs to two sections. *)
Theorem C47_unique_section k s s' : In k (attrs s) -> In k (attrs s') -> s = s'.
Proof. exact (unique_section k s s'). Qed.
Print Assumptions C47_unique_section.
(** Every option documented as a keyword argument belongs to a section, and conversely. *)
Theorem C47_documented_options k : In k documented_options -> exists s, In k (attrs s).
Proof.
  intros I. assert (H : forallb (fun k => existsb (fun s => hasattr s k) sections) documented_options = true) by (vm_compute; reflexivity).
  rewrite forallb_forall in H. specialize (H k I). apply existsb_exists in H as (s & _ & H). exists s. now apply hasattr_in.
Qed.
Print Assumptions C47_documented_options.
Theorem C47_options_documented s k : In k (attrs s) -> In k documented_options.
Proof.
  intros I. assert (H : forallb (fun s => forallb (fun k => existsb (String.eqb k) documented_options) (attrs s)) sections = true) by (vm_compute; reflexivity).
  rewrite forallb_forall in H. specialize (H s (sections_all s)). rewrite forallb_forall in H. specialize (H k I). apply existsb_exists in H as (x & J & E). apply String.eqb_eq in E. now subst.
Qed.
Print Assumptions C47_options_documented.
(** An option that is named has afterwards the last value given for it, as converted by the assignment. *)
Theorem C47_last_value_wins {V} (convert : sect -> string -> V -> option V) kw kw' c c' k v s :
  augment convert c (kw ++ (k, v) :: kw') = (c', None) -> ~ In k (map fst kw') -> In k (attrs s) -> convert s k v = Some (c' s k).
Proof. exact (augment_last convert kw kw' c c' k v s). Qed.
Print Assumptions C47_last_value_wins.
(** An option that is not named keeps its value, also if an exception is raised; and so does every attribute that is no option of the section. *)
Theorem C47_others_unchanged {V} (convert : sect -> string -> V -> option V) kw c s k :
  ~ In k (map fst kw) \/ ~ In k (attrs s) -> fst (augment convert c kw) s k = c s k.
Proof. intros [H|H]; [now apply augment_other|now apply augment_foreign]. Qed.
Print Assumptions C47_others_unchanged.
(** There is no exception iff every name is an option and every value can be converted. *)
Theorem C47_accepts_exactly {V} (convert : sect -> string -> V -> option V) kw c :
  snd (augment convert c kw) = None <-> Forall (fun e => exists s, In (fst e) (attrs s) /\ convert s (fst e) (snd e) <> None) kw.
Proof. exact (augment_ok_iff convert kw c). Qed.
Print Assumptions C47_accepts_exactly.
(** An exception is about the first argument that cannot be applied; those before it have been applied to the caller's object, those after it not. *)
Theorem C47_rejection {V} (convert : sect -> string -> V -> option V) kw c c' e : augment convert c kw = (c', Some e) ->
  exists pre k v post, kw = (pre ++ (k, v) :: post)%list /\ augment convert c pre = (c', None) /\
    ((e = ValueError k /\ forall s, ~ In k (attrs s)) \/ (e = TypeError k /\ exists s, In k (attrs s) /\ convert s k v = None)).
Proof. exact (augment_error convert kw c c' e). Qed.
Print Assumptions C47_rejection.
(** So rejection is not atomic. *)
Theorem C47_atomic_refuted : ~ (forall V (convert : sect -> string -> V -> option V) kw c c' e s k, augment convert c kw = (c', Some e) -> c' s k = c s k).
Proof.
  intros H. specialize (H bool (fun _ _ v => Some v) [("parallel", true); ("no_such_option", true)] (fun _ _ => false) _ _ Execution "parallel" eq_refl).
  vm_compute in H. discriminate.
Qed.
Print Assumptions C47_atomic_refuted.

Definition any : sect -> string -> nat -> option nat := fun _ _ v => Some v.
Example C47_nonvacuous : exists c', augment any (fun _ _ => 0) [("max_sims", 3); ("timeout", 7); ("max_sims", 5)] = (c', None) /\
  c' Simulation "max_sims" = 5 /\ c' Execution "timeout" = 7 /\ c' Execution "nthreads" = 0.
Proof. eexists. split; [reflexivity|]. vm_compute. auto. Qed.
Example C47_nonvacuous_reject : exists c', augment any (fun _ _ => 0) [("max_sims", 3); ("max_simz", 5); ("timeout", 7)] = (c', Some (ValueError "max_simz")) /\
  c' Simulation "max_sims" = 3 /\ c' Execution "timeout" = 0.
Proof. eexists. split; [reflexivity|]. vm_compute. auto. Qed.

(** C48. Whatever the caller's configuration and keyword arguments say, all three schemes are the gate-cost scheme and the profile is the one
    named after the level and the ancilla mode. *)
Theorem C48_scheme_and_profile {V} (convert : sect -> string -> V -> option V) gate_cost path c kw level m c' :
  verify_compilation convert gate_cost path c kw level m = (c', None) ->
  c' Application "construction_scheme" = gate_cost /\ c' Application "simulation_scheme" = gate_cost /\ c' Application "alternating_scheme" = gate_cost /\
  c' Application "profile" = path ("qiskit_O" ++ str_int level ++ "_" ++ mode_str m ++ ".profile").
Proof.
  unfold verify_compilation. destruct (augment convert c kw) as [c1 [e|]]; [discriminate|]. intros E. injection E as <-. repeat split.
Qed.
Print Assumptions C48_scheme_and_profile.
(** Every other option is as the keyword arguments leave it. *)
Theorem C48_other_options {V} (convert : sect -> string -> V -> option V) gate_cost path c kw level m s k :
  ~ (s = Application /\ In k ["construction_scheme"; "simulation_scheme"; "alternating_scheme"; "profile"]) ->
  fst (verify_compilation convert gate_cost path c kw level m) s k = fst (augment convert c kw) s k.
Proof.
  intros N. unfold verify_compilation. destruct (augment convert c kw) as [c1 [e|]]; [reflexivity|]. cbn [fst]. rewrite !get_set.
  destruct (sect_eqb s Application) eqn:E; [|reflexivity]. apply sect_eqb_eq in E as ->. cbn [andb].
  repeat match goal with |- context [String.eqb k ?x] => destruct (String.eqb_spec k x) as [->|_]; [exfalso; apply N; split; [reflexivity|cbn; tauto]|] end. reflexivity.
Qed.
Print Assumptions C48_other_options.
(** It fails exactly when the keyword arguments are rejected, with that exception, and then leaves the configuration as they do. *)
Theorem C48_errors {V} (convert : sect -> string -> V -> option V) gate_cost path c kw level m :
  snd (verify_compilation convert gate_cost path c kw level m) = snd (augment convert c kw) /\
  (snd (augment convert c kw) <> None -> verify_compilation convert gate_cost path c kw level m = augment convert c kw).
Proof. unfold verify_compilation. destruct (augment convert c kw) as [c1 [e|]]; split; auto. intros X. now destruct X. Qed.
Print Assumptions C48_errors.
(** Different pairs of optimisation level and ancilla mode have different profile names. *)
Theorem C48_names_distinct l l' m m' : generate_profile_name l m = generate_profile_name l' m' -> l = l' /\ m = m'.
Proof. exact (name_inj l l' m m'). Qed.
Print Assumptions C48_names_distinct.
(** The profiles shipped with the package are exactly those of levels 0 to 3 and all ancilla modes. *)
Theorem C48_shipped_profiles f : In f shipped <-> exists l m, (0 <= l <= 3)%Z /\ f = generate_profile_name l m.
Proof.
  split.
  - intros I. cbn [shipped In] in I.
    repeat (destruct I as [<-|I]; [match goal with |- exists l m, _ /\ ?f = _ =>
      first [exists 0%Z, NoAncilla; split; [lia|reflexivity]|exists 0%Z, Recursion; split; [lia|reflexivity]|exists 0%Z, VChain; split; [lia|reflexivity]
            |exists 1%Z, NoAncilla; split; [lia|reflexivity]|exists 1%Z, Recursion; split; [lia|reflexivity]|exists 1%Z, VChain; split; [lia|reflexivity]
            |exists 2%Z, NoAncilla; split; [lia|reflexivity]|exists 2%Z, Recursion; split; [lia|reflexivity]|exists 2%Z, VChain; split; [lia|reflexivity]
            |exists 3%Z, NoAncilla; split; [lia|reflexivity]|exists 3%Z, Recursion; split; [lia|reflexivity]|exists 3%Z, VChain; split; [lia|reflexivity]] end|]).
    destruct I.
  - intros (l & m & L & ->). assert (X : (l = 0 \/ l = 1 \/ l = 2 \/ l = 3)%Z) by lia. destruct X as [->|[->|[->| ->]]], m; vm_compute; tauto.
Qed.
Print Assumptions C48_shipped_profiles.

Example C48_nonvacuous : exists c', verify_compilation (fun _ _ v => Some v) "gate_cost" (fun f => "/profiles/" ++ f) (fun _ _ => "default")
    [("alternating_scheme", "proportional"); ("profile", "my.profile"); ("timeout", "60")] 3 VChain = (c', None) /\
  c' Application "alternating_scheme" = "gate_cost" /\ c' Application "profile" = "/profiles/qiskit_O3_v-chain.profile" /\ c' Execution "timeout" = "60".
Proof. eexists. split; [reflexivity|]. vm_compute. auto. Qed.
