(** Generated profiles: the contents. *)
From Coq Require Import String List Bool Arith ZArith NArith QArith Lia Sorting.Permutation.
From Verif Require Import PyConfig PyProfile PyProfileSpec PyProfileProofs ProfileGen ProfileGenSpec.
Import ListNotations.
Local Open Scope string_scope.

Section Gen.
Variable cost : Z -> call -> Z.
Variable solve : list (list Z) -> list Z -> option (list Q).
Notation general level := (create_gate_profile_data cost general_gates GENERAL level).
Notation mcp level := (create_gate_profile_data cost multi_controlled_gates MULTI_CONTROLLED level).
Notation moded level m := (create_gate_profile_data cost (gate_collection_for_mode m) MULTI_CONTROLLED level).
Definition measured (level : Z) (m : ancilla_mode) (g : string) (nc : nat) : option Z := option_map (cost level) (measured_circuit m g nc).

Definition mkeys : list pkey :=
  map (fun e => (fst e, 0%nat)) plain ++ map (fun e => (fst e, 1%nat)) controlled ++ map (fun n => ("x", n)) (seq 2 10) ++ map (fun n => ("p", n)) (seq 2 10).
Definition nodupb (l : list pkey) : bool :=
  (fix go l := match l with [] => true | k :: r => negb (existsb (pkey_eqb k) r) && go r end) l.
Lemma nodupb_ok l : nodupb l = true -> NoDup l.
Proof.
  induction l as [|k r IH]; intros H; [constructor|]. apply andb_prop in H as [H1 H2]. constructor; [|exact (IH H2)].
  intros I. apply negb_true_iff in H1. assert (existsb (pkey_eqb k) r = true); [|congruence]. apply existsb_exists. exists k. split; auto. apply pkey_eqb_refl.
Qed.
Lemma mcp_nodup level : keys_nodup (mcp level).
Proof. apply nodupb_ok. vm_compute. reflexivity. Qed.
Lemma moded_nodup level m : keys_nodup (moded level m).
Proof. apply nodupb_ok. destruct m; vm_compute; reflexivity. Qed.
Lemma general_nodup level : keys_nodup (general level).
Proof. apply nodupb_ok. vm_compute. reflexivity. Qed.

Definition merged level m (k : pkey) : option Z :=
  match dget (moded level m) k with Some v => Some v | None => match dget (mcp level) k with Some v => Some v | None => dget (general level) k end end.

Lemma assoc_in {A} (l : list (string * A)) g a : assoc l g = Some a -> In (g, a) l.
Proof. induction l as [|[g' b] l IH]; cbn; [discriminate|]. destruct (String.eqb_spec g' g); [intros X; injection X as ->; subst; auto|auto]. Qed.
Lemma merged_in level m k : In k mkeys -> merged level m k = measured level m (fst k) (snd k).
Proof.
  intros I. vm_compute in I. repeat (destruct I as [<-|I]; [destruct m; vm_compute; reflexivity|]). destruct I.
Qed.
Lemma measured_key m g nc : measured_circuit m g nc <> None -> In (g, nc) mkeys.
Proof.
  unfold measured_circuit, mkeys. intros H. destruct nc as [|[|n]].
  - destruct (assoc plain g) as [a|] eqn:E; [|congruence]. apply assoc_in in E. apply in_or_app. left. apply (in_map (fun e => (fst e, 0%nat))) in E. exact E.
  - destruct (assoc controlled g) as [a|] eqn:E; [|congruence]. apply assoc_in in E. apply in_or_app. right. apply in_or_app. left. apply (in_map (fun e => (fst e, 1%nat))) in E. exact E.
  - destruct (Nat.leb_spec (S (S n)) 11) as [L|]; [|congruence]. do 2 (apply in_or_app; right).
    destruct (String.eqb_spec g "x") as [->|]; [apply in_or_app; left; apply (in_map (fun n => ("x", n))); apply in_seq; lia|].
    destruct (String.eqb_spec g "p") as [->|]; [apply in_or_app; right; apply (in_map (fun n => ("p", n))); apply in_seq; lia|congruence].
Qed.
Lemma merged_key level m k : merged level m k <> None -> In k mkeys.
Proof.
  unfold merged. intros H.
  assert (S : forall d, forallb (fun k => existsb (pkey_eqb k) mkeys) (map fst d) = true -> dget d k <> None -> In k mkeys).
  { intros d F N. destruct (dget d k) as [v|] eqn:E; [|congruence]. apply dget_in, (in_map fst) in E. rewrite forallb_forall in F. apply F in E.
    apply existsb_exists in E as (k' & I & E). apply pkey_eqb_eq in E. cbn in E. now subst. }
  destruct (dget (moded level m) k) eqn:E1; [apply (S (moded level m)); [destruct m; vm_compute; reflexivity|congruence]|].
  destruct (dget (mcp level) k) eqn:E2; [apply (S (mcp level)); [vm_compute; reflexivity|congruence]|].
  apply (S (general level)); [vm_compute; reflexivity|exact H].
Qed.
Lemma merged_measured level m g nc : merged level m (g, nc) = measured level m g nc.
Proof.
  destruct (merged level m (g, nc)) as [v|] eqn:E.
  - rewrite <- E. apply (merged_in level m (g, nc)). apply (merged_key level m). congruence.
  - destruct (measured level m g nc) as [v|] eqn:E'; [|reflexivity]. rewrite <- E, <- E'. apply (merged_in level m (g, nc)). apply (measured_key m).
    unfold measured in E'. destruct (measured_circuit m g nc); [congruence|discriminate].
Qed.

(** ** the phases of the generation *)
Lemma data_spec level m d : profile_data cost solve level m = Some d -> exists d1 d2,
  find_continuation solve (dupdate (general level) (mcp level)) "p" 5 3 11 128 1000000 = Some d1 /\
  find_continuation solve (dupdate d1 (moded level m)) "x" 5 3 11 128 1000000 = Some d2 /\
  d = add_special_case_data special_gates "p" d2.
Proof.
  unfold profile_data, generate_profile. destruct (find_continuation solve (dupdate (general level) (mcp level)) "p" 5 3 11 128 1000000) as [d1|]; [|discriminate].
  destruct (find_continuation solve (dupdate d1 (moded level m)) "x" 5 3 11 128 1000000) as [d2|] eqn:E; [|discriminate]. intros X. injection X as <-.
  exists d1, d2. auto.
Qed.

Lemma profile_small level m d g nc : profile_data cost solve level m = Some d -> (nc <= 11)%nat ->
  dget d (g, nc) = match measured level m g nc with Some c => Some c | None => if fixed_phase g then measured level m "p" nc else None end.
Proof.
  intros E L. apply data_spec in E as (d1 & d2 & E1 & E2 & ->). rewrite special_spec. cbn [fst snd].
  apply extend_spec in E1 as (m1 & _ & _ & H1). apply extend_spec in E2 as (m2 & _ & _ & H2).
  assert (X : forall g, dget d2 (g, nc) = measured level m g nc).
  { intros g'. rewrite <- merged_measured. unfold merged. rewrite H2 by (intros j _ X; injection X as _ X; lia).
    rewrite dget_dupdate, dlast_nodup by apply moded_nodup. rewrite H1 by (intros j _ X; injection X as _ X; lia).
    rewrite dget_dupdate, dlast_nodup by apply mcp_nodup. reflexivity. }
  rewrite !X. reflexivity.
Qed.
Lemma measured_large level m g nc : (11 < nc)%nat -> measured level m g nc = None.
Proof. intros L. unfold measured, measured_circuit. destruct nc as [|[|n]]; [lia|lia|]. destruct (Nat.leb_spec (S (S n)) 11); [lia|reflexivity]. Qed.
Lemma profile_large level m d g nc : profile_data cost solve level m = Some d -> (11 < nc)%nat -> g <> "p" -> g <> "x" ->
  dget d (g, nc) = if fixed_phase g then dget d ("p", nc) else None.
Proof.
  intros E L Np Nx. apply data_spec in E as (d1 & d2 & E1 & E2 & ->). rewrite !special_spec. cbn [fst snd].
  apply extend_spec in E1 as (m1 & _ & _ & H1). apply extend_spec in E2 as (m2 & _ & _ & H2).
  assert (X : dget d2 (g, nc) = None).
  { rewrite H2 by (intros j _ X; injection X as X _; congruence).
    rewrite dget_dupdate, dlast_nodup by apply moded_nodup. rewrite H1 by (intros j _ X; injection X as X _; congruence).
    rewrite dget_dupdate, dlast_nodup by apply mcp_nodup. change (merged level m (g, nc) = None). rewrite merged_measured. now apply measured_large. }
  rewrite X. change (existsb (String.eqb g) special_gates) with (fixed_phase g). destruct (fixed_phase g); [|reflexivity].
  change (existsb (String.eqb "p") special_gates) with false. now destruct (dget d2 ("p", nc)).
Qed.
Lemma profile_bound level m d g nc v : profile_data cost solve level m = Some d -> dget d (g, nc) = Some v -> (nc < 128)%nat.
Proof.
  intros E V. destruct (Nat.lt_ge_cases nc 128) as [|L]; [assumption|exfalso].
  assert (N : forall g, g = "p" \/ g = "x" -> dget d (g, nc) = None).
  { clear V g v. intros g B. apply data_spec in E as (d1 & d2 & E1 & E2 & ->). rewrite special_spec. cbn [fst snd].
    replace (existsb (String.eqb g) special_gates) with false by (destruct B as [->| ->]; reflexivity).
    apply extend_spec in E1 as (m1 & L1 & _ & H1). apply extend_spec in E2 as (m2 & L2 & _ & H2).
    rewrite H2 by (intros j J X; injection X as _ X; lia).
    rewrite dget_dupdate, dlast_nodup by apply moded_nodup. rewrite H1 by (intros j J X; injection X as _ X; lia).
    rewrite dget_dupdate, dlast_nodup by apply mcp_nodup. change (match merged level m (g, nc) with Some v => Some v | None => None end = None).
    rewrite merged_measured, measured_large by lia. reflexivity. }
  destruct (String.eqb_spec g "p") as [Q|Np]; [rewrite N in V by auto; discriminate|]. destruct (String.eqb_spec g "x") as [Q|Nx]; [rewrite N in V by auto; discriminate|].
  rewrite (profile_large level m d g nc E) in V by (auto; lia). destruct (fixed_phase g); [rewrite N in V by auto|]; discriminate.
Qed.
Lemma fixed_phase_in g : fixed_phase g = true -> In g profile_gates.
Proof. intros H. apply existsb_exists in H as (g' & I & Q). apply String.eqb_eq in Q as <-. vm_compute in I. repeat (destruct I as [<-|I]; [vm_compute; auto 30|]). destruct I. Qed.
Lemma profile_names level m d g nc v : profile_data cost solve level m = Some d -> dget d (g, nc) = Some v -> In g profile_gates.
Proof.
  intros E V. destruct (String.eqb_spec g "p") as [->|Np]; [vm_compute; auto 30|]. destruct (String.eqb_spec g "x") as [->|Nx]; [vm_compute; auto 30|].
  destruct (Nat.lt_ge_cases 11 nc) as [L|L].
  - rewrite (profile_large level m d g nc E L Np Nx) in V. destruct (fixed_phase g) eqn:F; [now apply fixed_phase_in|discriminate].
  - rewrite (profile_small level m d g nc E L) in V. destruct (measured level m g nc) as [w|] eqn:M.
    + assert (I : In (g, nc) mkeys) by (apply (measured_key m); unfold measured in M; destruct (measured_circuit m g nc); [discriminate|discriminate M]).
      apply (in_map fst) in I. clear - I. vm_compute in I. cbn [fst] in I. repeat (destruct I as [<-|I]; [vm_compute; auto 30|]). destruct I.
    + destruct (fixed_phase g) eqn:F; [now apply fixed_phase_in|discriminate].
Qed.

(** ** the dict has no key twice *)
Lemma dset_nodup d k v : keys_nodup d -> keys_nodup (dset d k v).
Proof.
  unfold keys_nodup. induction d as [|[k0 w] d IH]; intros N; cbn [dset map].
  - constructor; [intros []|constructor].
  - cbn [map] in N. apply NoDup_cons_iff in N as [N N']. destruct (pkey_eqb k0 k) eqn:E; cbn [map fst] in *; constructor; auto.
    intros I. apply N. destruct (in_map_iff fst (dset d k v) k0) as [I' _]. destruct (I' I) as ([k1 v1] & Q & J). cbn in Q. subst k1.
    assert (X : dget (dset d k v) k0 <> None) by (exact (dget_in_rev _ _ _ J)). rewrite dget_dset in X. destruct (pkey_eqb k k0) eqn:E'.
    + apply pkey_eqb_eq in E'. subst. rewrite pkey_eqb_refl in E. discriminate.
    + destruct (dget d k0) eqn:G; [|congruence]. apply dget_in, (in_map fst) in G. exact G.
Qed.
Lemma dupdate_nodup d2 : forall d, keys_nodup d -> keys_nodup (dupdate d d2).
Proof. unfold dupdate. induction d2 as [|e d2 IH]; intros d N; cbn [fold_left]; auto. apply IH. now apply dset_nodup. Qed.
Lemma setdefault_nodup d k v : keys_nodup d -> keys_nodup (setdefault d k v).
Proof. intros N. unfold setdefault. destruct (dget d k); auto. now apply dset_nodup. Qed.
Lemma extend_nodup gate mc cut c : forall k i s d d', keys_nodup d -> extend gate mc cut c k i s d = Some d' -> keys_nodup d'.
Proof.
  induction k as [|k IH]; intros i s d d' N; cbn [extend]; [intros X; injection X as <-; auto|]. destruct (next_term c s); [|discriminate].
  destruct (Qle_bool _ _); [intros X; injection X as <-; auto|]. apply IH. now apply dset_nodup.
Qed.
Lemma special_nodup gates under l : forall d, keys_nodup d ->
  keys_nodup (fold_left (fun acc e => if String.eqb (fst (fst e)) under then fold_left (fun acc g => setdefault acc (g, snd (fst e)) (snd e)) gates acc else acc) l d).
Proof.
  induction l as [|e l IH]; intros d N; cbn [fold_left]; auto. apply IH. destruct (String.eqb (fst (fst e)) under); auto. clear IH l.
  revert d N. induction gates as [|g gates IHg]; intros d N; cbn [fold_left]; auto. apply IHg. now apply setdefault_nodup.
Qed.
Lemma profile_nodup level m d : profile_data cost solve level m = Some d -> keys_nodup d.
Proof.
  intros E. apply data_spec in E as (d1 & d2 & E1 & E2 & ->). apply special_nodup. apply extend_nodup in E2; auto. apply dupdate_nodup. apply extend_nodup in E1; auto.
  apply dupdate_nodup. apply general_nodup.
Qed.

(** ** the costs a continuation starts from *)
Definition costs (level : Z) (m : ancilla_mode) (g : string) : list Z :=
  map (fun nc => match measured_circuit m g nc with Some c => cost level c | None => 0%Z end) (seq 0 12).
Definition of_gate (g : string) (d : dict) : dict := filter (fun e => String.eqb (fst (fst e)) g) d.
Lemma of_gate_dset_same g d nc v : of_gate g (dset d (g, nc) v) = dset (of_gate g d) (g, nc) v.
Proof.
  unfold of_gate. induction d as [|[k w] d IH]; cbn [dset filter fst snd].
  - now rewrite String.eqb_refl.
  - destruct (pkey_eqb k (g, nc)) eqn:E.
    + cbn [filter fst]. apply pkey_eqb_eq in E. subst k. cbn [fst]. rewrite String.eqb_refl. cbn [dset]. now rewrite pkey_eqb_refl.
    + cbn [filter fst]. destruct (String.eqb (fst k) g); [|exact IH]. cbn [dset]. now rewrite E, IH.
Qed.
Lemma of_gate_dset_other g d g' nc v : g' <> g -> of_gate g (dset d (g', nc) v) = of_gate g d.
Proof.
  intros N. unfold of_gate. induction d as [|[k w] d IH]; cbn [dset filter fst snd].
  - destruct (String.eqb_spec g' g); [congruence|reflexivity].
  - destruct (pkey_eqb k (g', nc)) eqn:E; cbn [filter fst].
    + apply pkey_eqb_eq in E. subst k. cbn [fst]. destruct (String.eqb_spec g' g); [congruence|reflexivity].
    + now rewrite IH.
Qed.
Lemma of_gate_extend g gate mc cut c : gate <> g -> forall k i s d d', extend gate mc cut c k i s d = Some d' -> of_gate g d' = of_gate g d.
Proof.
  intros N. induction k as [|k IH]; intros i s d d'; cbn [extend]; [intros X; injection X as <-; auto|]. destruct (next_term c s); [|discriminate].
  destruct (Qle_bool _ _); [intros X; injection X as <-; auto|]. intros E. apply IH in E. rewrite E. now apply of_gate_dset_other.
Qed.
Lemma of_gate_dupdate g d2 : forallb (fun e => String.eqb (fst (fst e)) g) d2 = true -> forall d, of_gate g (dupdate d d2) = dupdate (of_gate g d) d2.
Proof.
  unfold dupdate. induction d2 as [|[[g' nc] v] d2 IH]; intros F d; cbn [fold_left]; auto. cbn [forallb fst] in F. apply andb_prop in F as [F1 F2].
  apply String.eqb_eq in F1. cbn [fst] in F1. subst g'. cbn [fst snd]. rewrite (IH F2), of_gate_dset_same. reflexivity.
Qed.
Lemma costs_p level m : map snd (of_gate "p" (dupdate (general level) (mcp level))) = costs level m "p".
Proof. destruct m; vm_compute; reflexivity. Qed.
Lemma costs_x level m d1 : find_continuation solve (dupdate (general level) (mcp level)) "p" 5 3 11 128 1000000 = Some d1 ->
  map snd (of_gate "x" (dupdate d1 (moded level m))) = costs level m "x".
Proof.
  intros E. rewrite of_gate_dupdate by (destruct m; vm_compute; reflexivity). apply (of_gate_extend "x") in E; [|discriminate]. rewrite E.
  destruct m; vm_compute; reflexivity.
Qed.
Lemma sequence_of d g n : sequence d g n = skipn n (sorted (map snd (of_gate g d))).
Proof. reflexivity. Qed.

(** ** no exception *)
Lemma profile_total level m : (forall mat f c, solve mat f = Some c -> length c = length f) -> profile_data cost solve level m <> None.
Proof.
  intros HS. unfold profile_data, generate_profile.
  destruct (find_continuation solve (dupdate (general level) (mcp level)) "p" 5 3 11 128 1000000) as [d1|] eqn:E1.
  2:{ exfalso. revert E1. apply find_continuation_total; auto. assert (L := f_equal (@length Z) (costs_p level m)).
      unfold costs in L. rewrite !map_length, seq_length in L. eapply Nat.le_trans; [|apply Nat.eq_le_incl; symmetry; exact L]. lia. }
  destruct (find_continuation solve (dupdate d1 (moded level m)) "x" 5 3 11 128 1000000) as [d2|] eqn:E2; [discriminate|].
  exfalso. revert E2. apply find_continuation_total; auto. assert (L := f_equal (@length Z) (costs_x level m d1 E1)).
  unfold costs in L. rewrite !map_length, seq_length in L. eapply Nat.le_trans; [|apply Nat.eq_le_incl; symmetry; exact L]. lia.
Qed.
(** ** the predicted costs *)
Lemma predicted_kept level m d g : profile_data cost solve level m = Some d -> (g = "p" \/ g = "x") -> exists d0 d',
  map snd (of_gate g d0) = costs level m g /\ find_continuation solve d0 g 5 3 11 128 1000000 = Some d' /\
  (forall nc, (11 < nc)%nat -> dget d (g, nc) = dget d' (g, nc)) /\ (forall nc, (11 < nc)%nat -> dget d0 (g, nc) = None).
Proof.
  intros E B. apply data_spec in E as (d1 & d2 & E1 & E2 & ->). destruct B as [->| ->].
  - exists (dupdate (general level) (mcp level)), d1. split; [apply costs_p|]. split; [exact E1|].
    assert (N : forall nc, dget (moded level m) ("p", nc) = None).
    { intros nc. apply dget_none. intros I. assert (F : forallb (fun k => negb (String.eqb (fst k) "p")) (map fst (moded level m)) = true) by (destruct m; vm_compute; reflexivity).
      rewrite forallb_forall in F. apply F in I. cbn in I. discriminate. }
    split; intros nc L.
    + rewrite special_spec. cbn [fst snd].
      change (existsb (String.eqb "p") special_gates) with false. apply extend_spec in E2 as (m2 & _ & _ & H2). rewrite H2 by (intros j _ X; discriminate X).
      rewrite dget_dupdate, dlast_nodup by apply moded_nodup. rewrite N. now destruct (dget d1 ("p", nc)).
    + rewrite dget_dupdate, dlast_nodup by apply mcp_nodup. assert (M := merged_measured level m "p" nc). unfold merged in M. rewrite N in M. rewrite M. now apply measured_large.
  - exists (dupdate d1 (moded level m)), d2. split; [now apply costs_x|]. split; [exact E2|]. split; intros nc L.
    + rewrite special_spec. cbn [fst snd].
      change (existsb (String.eqb "x") special_gates) with false. now destruct (dget d2 ("x", nc)).
    + rewrite dget_dupdate, dlast_nodup by apply moded_nodup. apply extend_spec in E1 as (m1 & _ & _ & H1). rewrite H1 by (intros j _ X; discriminate X).
      rewrite dget_dupdate, dlast_nodup by apply mcp_nodup. change (merged level m ("x", nc) = None). rewrite merged_measured. now apply measured_large.
Qed.
End Gen.
