(** Lemmas for C86, continued: the other levels, the generator's costs, the scheme. *)
From Coq Require Import String Ascii List Bool Arith ZArith NArith QArith Lia.
From Verif Require Import PyConfig PyConfigProofs PyProfile PyProfileSolver PyProfileProofs ProfileGen ProfileGenSpec ProfileGenProofs ProfileGenProofs2 ProfileGenProofs3 Schemes SchemesSpec SchemesProofs2 ProfileData ProfileDataSpec ProfileDataProofs ProfileDataProofs2.
Import ListNotations.
Local Open Scope string_scope.

Lemma other_levels l m : ~ (0 <= l <= 3)%Z -> package_profile (generate_profile_name l m) = None.
Proof.
  intros N. destruct (package_profile (generate_profile_name l m)) eqn:E; [|reflexivity].
  assert (X : package_profile (generate_profile_name l m) <> None) by congruence. apply package_files in X as (l' & m' & L & E'). apply name_inj in E' as [-> _]. contradiction.
Qed.
Lemma generated l m : (0 <= l <= 3)%Z ->
  exists cost content, package_profile (generate_profile_name l m) = Some content /\
    profile_file cost cramer (fun name => name) "1.2.0" l m = Some content /\
    forall g nc c, measured_circuit m g nc = Some c -> (0 <= cost l c < 1000000)%Z.
Proof.
  intros L. destruct (package_data l m L) as (P & E & W). exists (cost_from (d_of l m)), (file_of l m). split; [exact P|]. split.
  - unfold profile_file. rewrite E. now rewrite W.
  - intros g nc c M. assert (nc <= 11)%nat.
    { destruct nc as [|[|nc]]; try lia. unfold measured_circuit in M. destruct (Nat.leb_spec (S (S nc)) 11); [lia|discriminate]. }
    pose proof (profile_small (cost_from (d_of l m)) cramer l m (d_of l m) g nc E H) as D. unfold measured in D. rewrite M in D.
    exact (proj1 (dget_fine l m _ _ L D)).
Qed.
Lemma scheme_cost tyof l m t g c fusion v : knows_names tyof -> (0 <= l <= 3)%Z -> shipped_table tyof l m t ->
  shipped_cost tyof l m g (v_nc v) c -> tyof g = Some (v_type v) -> (fusion = false \/ v_used v <> 1%N) -> gatecost_scheme t fusion v = (1, c)%N.
Proof.
  intros K L T (G & t' & ty & T' & Y & H) Y' F. apply (table_of tyof l m) in T, T'; try exact L. assert (t' = t) by congruence. assert (ty = v_type v) by congruence. subst t' ty.
  unfold gatecost_scheme. destruct t as [|e t]; [cbn in H; discriminate|]. rewrite H.
  destruct F as [->|F]; [reflexivity|]. apply N.eqb_neq in F. rewrite F, andb_false_r. reflexivity.
Qed.
