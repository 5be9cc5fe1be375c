(** Lemmas for C86. *)
From Coq Require Import String Ascii List Bool Arith ZArith NArith QArith Lia.
From Verif Require Import PyConfig PyProfile PyProfileSolver PyProfileProofs ProfileGen ProfileGenSpec ProfileGenProofs ProfileGenProofs2 ProfileGenProofs3 Schemes SchemesSpec ProfileData ProfileDataSpec.
Import ListNotations.
Local Open Scope string_scope.

(** the numbers of a file, by name *)
Definition parse_line (l : list Ascii.ascii) : option (pkey * Z) :=
  let (tok, r) := read_token (skip_ws l) in
  match tok with
  | [] => None
  | "#"%char :: _ => None
  | _ => match read_num r with
         | Some (nc, r2) => match read_num r2 with Some (c, _) => Some ((string_of_list_ascii tok, N.to_nat nc), Z.of_N c) | None => None end
         | None => None
         end
  end.
Definition parse_file (s : string) : dict :=
  flat_map (fun l => match parse_line l with Some e => [e] | None => [] end) (split_lines (list_ascii_of_string s) []).
Definition value (d : dict) (g : string) (nc : nat) : Z := match dget d (g, nc) with Some v => v | None => 0%Z end.
(** the costs that the file itself holds *)
Definition cost_from (d : dict) (level : Z) (c : call) : Z :=
  match c with
  | Positional _ method _ _ => match dget d (method, O) with Some v => v | None => match method with String _ g => value d g 1 | _ => 0%Z end end
  | Keywords _ method _ cs _ _ => match method with String _ (String _ g) => value d g (length cs) | _ => 0%Z end
  end.
Definition file_of (level : Z) (m : ancilla_mode) : string := match package_profile (generate_profile_name level m) with Some s => s | None => "" end.
Definition d_of (level : Z) (m : ancilla_mode) : dict := parse_file (file_of level m).
Definition entry_eqb (a b : pkey * Z) : bool := pkey_eqb (fst a) (fst b) && Z.eqb (snd a) (snd b).
Fixpoint dict_eqb (a b : dict) : bool :=
  match a, b with [], [] => true | x :: a', y :: b' => entry_eqb x y && dict_eqb a' b' | _, _ => false end.
Lemma dict_eqb_eq a : forall b, dict_eqb a b = true -> a = b.
Proof.
  induction a as [|[k v] a IH]; intros [|[k' v'] b] H; try discriminate; [reflexivity|]. cbn in H. unfold entry_eqb in H. cbn in H.
  apply andb_true_iff in H as [H1 H2]. apply andb_true_iff in H1 as [H1 H3]. apply pkey_eqb_eq in H1. apply Z.eqb_eq in H3. subst. now rewrite (IH _ H2).
Qed.
Definition regenerated (level : Z) (m : ancilla_mode) : bool :=
  match package_profile (generate_profile_name level m) with
  | None => false
  | Some s =>
      match profile_data (cost_from (d_of level m)) cramer level m with
      | Some d => dict_eqb d (d_of level m) && String.eqb (write_profile_data_to_file (generate_profile_name level m) "1.2.0" d) s
      | None => false
      end
  end.
Definition modes : list ancilla_mode := [NoAncilla; Recursion; VChain].
Lemma everywhere (P : Z -> ancilla_mode -> bool) : forallb (fun l => forallb (P l) modes) [0; 1; 2; 3]%Z = true ->
  forall l m, (0 <= l <= 3)%Z -> P l m = true.
Proof.
  intros H l m L. assert (I : In l [0; 1; 2; 3]%Z) by (cbn; lia). rewrite forallb_forall in H. specialize (H l I). rewrite forallb_forall in H.
  apply H. destruct m; cbn; tauto.
Qed.
Lemma all_regenerated : forall l m, (0 <= l <= 3)%Z -> regenerated l m = true.
Proof. apply everywhere. vm_compute. reflexivity. Qed.

Lemma package_data l m : (0 <= l <= 3)%Z -> package_profile (generate_profile_name l m) = Some (file_of l m) /\
  profile_data (cost_from (d_of l m)) cramer l m = Some (d_of l m) /\
  write_profile_data_to_file (generate_profile_name l m) "1.2.0" (d_of l m) = file_of l m.
Proof.
  intros L. pose proof (all_regenerated l m L) as H. unfold regenerated in H. unfold file_of.
  destruct (package_profile (generate_profile_name l m)) as [s|]; [|discriminate]. split; [reflexivity|].
  destruct (profile_data _ _ _ _) as [d|]; [|discriminate]. apply andb_true_iff in H as [H1 H2]. apply dict_eqb_eq in H1. subst d. apply String.eqb_eq in H2. auto.
Qed.
