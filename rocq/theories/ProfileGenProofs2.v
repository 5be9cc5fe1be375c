(** Generated profiles: reading the file back. *)
From Coq Require Import String Ascii List Bool Arith ZArith NArith QArith Lia Decimal DecimalString.
From Verif Require Import PyConfig PyProfile PyProfileSpec PyProfileProofs ProfileGen ProfileGenSpec ProfileGenProofs.
From Verif Require Import Schemes SchemesSpec SchemesProofs SchemesProofs2 SchemesProofs3.
Import ListNotations.
Local Open Scope string_scope.
Local Open Scope N_scope.

Lemma str_int_nonneg c : (0 <= c)%Z -> str_int c = dec (Z.to_N c).
Proof. intros H. destruct c as [|p|p]; [reflexivity|reflexivity|lia]. Qed.
Lemma str_int_neg p : str_int (Zneg p) = "-" ++ dec (Npos p).
Proof. reflexivity. Qed.
Lemma str_int_one_line c : one_line (str_int c).
Proof.
  unfold one_line. destruct c as [|p|p]; [intros [H|[]]; discriminate|exact (dec_one_line (Npos p))|]. rewrite str_int_neg. cbn [append list_ascii_of_string].
  intros [H|H]; [discriminate|exact (dec_one_line _ H)].
Qed.
Lemma read_num_big n rest : 2 ^ 64 <= n -> stops rest -> read_num (" "%char :: las (dec n) ++ rest) = None.
Proof.
  intros HN HR. destruct (dec_nilempty n) as (u & -> & HU & HNil).
  unfold read_num. change (skip_ws (" "%char :: ?l)) with (skip_ws l).
  assert (H : exists c r d, (las (NilEmpty.string_of_uint u) ++ rest = c :: r)%list /\ digit c = Some d /\ c <> "-"%char /\ c <> "+"%char).
  { destruct u; [contradiction|..]; cbn [NilEmpty.string_of_uint list_ascii_of_string List.app]; do 3 eexists; (split; [reflexivity|split; [vm_compute; reflexivity|split; discriminate]]). }
  destruct H as (c & r & d & E & HD & HC1 & HC2).
  pose proof (read_digits_val u rest 0 HR) as HV. rewrite val_zero, HU in HV. rewrite E in HV |- *.
  cbn [skip_ws]. rewrite (digit_not_ws c d HD).
  assert (HM : (match c :: r with "-"%char :: r0 => (true, r0) | "+"%char :: r0 => (false, r0) | _ => (false, c :: r) end) = (false, c :: r)).
  { destruct c as [[] [] [] [] [] [] [] []]; try reflexivity; exfalso; (now apply HC1) || (now apply HC2). }
  rewrite HM, HD, HV. apply N.ltb_ge in HN. rewrite HN. reflexivity.
Qed.
Lemma read_num_neg n rest : stops rest ->
  read_num (" "%char :: "-"%char :: las (dec n) ++ rest) = if n <? 2 ^ 64 then Some (w64 (2 ^ 64 - n), rest) else None.
Proof.
  intros HR. destruct (dec_nilempty n) as (u & -> & HU & HNil).
  unfold read_num. change (skip_ws (" "%char :: "-"%char :: ?l)) with ("-"%char :: l). cbv iota beta.
  assert (H : exists c r d, (las (NilEmpty.string_of_uint u) ++ rest = c :: r)%list /\ digit c = Some d).
  { destruct u; [contradiction|..]; cbn [NilEmpty.string_of_uint list_ascii_of_string List.app]; do 3 eexists; (split; [reflexivity|vm_compute; reflexivity]). }
  destruct H as (c & r & d & E & HD).
  pose proof (read_digits_val u rest 0 HR) as HV. rewrite val_zero, HU in HV. rewrite E in HV |- *. rewrite HD, HV. reflexivity.
Qed.
Lemma read_cost c rest : stops rest ->
  read_num (" "%char :: las (str_int c) ++ rest) = match cost_read c with Some v => Some (v, rest) | None => None end.
Proof.
  intros HR. unfold cost_read. destruct c as [|p|p].
  - change (str_int 0) with (dec 0). rewrite read_num_dec by (reflexivity || exact HR). reflexivity.
  - change (str_int (Zpos p)) with (dec (Npos p)). cbn [Z.abs]. destruct (Z.ltb_spec (Zpos p) (2 ^ 64)) as [L|L].
    + rewrite read_num_dec; [|lia|exact HR]. rewrite Z.mod_small by lia. reflexivity.
    + now rewrite read_num_big; [|lia|exact HR].
  - rewrite str_int_neg. cbn [append list_ascii_of_string List.app]. rewrite read_num_neg by exact HR. cbn [Z.abs].
    destruct (N.ltb_spec (Npos p) (2 ^ 64)) as [L|L]; destruct (Z.ltb_spec (Zpos p) (2 ^ 64)) as [L'|L']; try lia; [|reflexivity].
    do 2 f_equal. unfold w64. rewrite N.mod_small by lia. apply N2Z.inj. rewrite Z2N.id by (apply Z.mod_pos_bound; lia).
    rewrite <- (Z.mod_unique_pos (Zneg p) (2 ^ 64) (-1) (2 ^ 64 - Zpos p)) by lia. rewrite N2Z.inj_sub by lia. reflexivity.
Qed.

Definition line_text (e : pkey * Z) : string := fst (fst e) ++ " " ++ dec (N.of_nat (snd (fst e))) ++ " " ++ str_int (snd e).
Lemma read_written tyof e : gate_name (fst (fst e)) -> N.of_nat (snd (fst e)) < 2 ^ 64 ->
  read_line tyof (las (line_text e)) = match tyof (fst (fst e)) with
    | Some ty => match cost_read (snd e) with Some v => LEntry (ty, N.of_nat (snd (fst e))) v | None => LSkip end | None => LThrow end.
Proof.
  destruct e as [[g nc] c]. cbn [fst snd]. intros [[HG1 HG2] HG3] HN. apply white_words in HG2. unfold line_text. cbn [fst snd]. rewrite !las_app.
  destruct g as [|a g]; [contradiction|]. cbn [list_ascii_of_string] in *. inversion HG2 as [|? ? HA HW]; subst.
  assert (HH : a <> "#"%char) by (intros ->; now apply (HG3 g)).
  change (las " ") with [" "%char]. cbn [List.app].
  assert (HM : forall l T F, (match a :: l with [] => LSkip | "#"%char :: _ => T | _ => F end) = F).
  { intros. destruct a as [[] [] [] [] [] [] [] []]; try reflexivity. now contradict HH. }
  unfold read_line. rewrite HM. cbn [skip_ws]. rewrite HA.
  change (a :: las g ++ " "%char :: ?x)%list with ((a :: las g) ++ " "%char :: x)%list.
  rewrite read_token_word; [|now constructor|reflexivity].
  change (string_of_list_ascii (a :: las g)) with (String a (string_of_list_ascii (las g))). rewrite sla_las.
  destruct (tyof (String a g)); [|reflexivity].
  rewrite read_num_dec; [|exact HN|reflexivity].
  rewrite <- (app_nil_r (las (str_int c))), read_cost by exact I. now destruct (cost_read c).
Unshelve. exact []. Qed.

Lemma las_nl : las nl = ["010"%char].
Proof. reflexivity. Qed.
Lemma split_written f v d : one_line f -> one_line v -> (forall e, In e d -> gate_name (fst (fst e))) ->
  split_lines (las (write_profile_data_to_file f v d)) [] = las ("# " ++ f ++ ", Qiskit version: " ++ v) :: map (fun e => las (line_text e)) d.
Proof.
  intros Hf Hv HG. unfold write_profile_data_to_file.
  replace ("# " ++ f ++ ", Qiskit version: " ++ v ++ nl ++ String.concat "" (map write_line d)) with (("# " ++ f ++ ", Qiskit version: " ++ v) ++ nl ++ String.concat "" (map write_line d))
    by (rewrite !str_app_assoc; reflexivity).
  rewrite (las_app ("# " ++ f ++ ", Qiskit version: " ++ v)), (las_app nl), las_nl. cbn [List.app]. rewrite split_line.
  2:{ assert (O : one_line ("# " ++ f ++ ", Qiskit version: " ++ v)); [|exact O]. repeat apply one_line_app; auto; intros HI; cbn in HI; repeat (destruct HI as [HI|HI]; [discriminate|]); exact HI. }
  cbn [rev List.app]. f_equal. rewrite las_concat, map_map. induction d as [|e d IH]; [reflexivity|]. cbn [map List.concat].
  replace (write_line e) with (line_text e ++ nl) by (unfold line_text, write_line; rewrite !str_app_assoc; reflexivity).
  rewrite (las_app (line_text e)), <- app_assoc, las_nl. cbn [List.app]. rewrite split_line.
  - rewrite IH by (intros e' I; apply HG; now right). reflexivity.
  - assert (O : one_line (line_text e)); [|exact O]. unfold line_text. apply one_line_app; [apply word_one_line; apply HG; now left|].
    apply one_line_app; [intros [H|[]]; discriminate|]. apply one_line_app; [apply dec_one_line|]. apply one_line_app; [intros [H|[]]; discriminate|apply str_int_one_line].
Qed.

Definition dict_ok (tyof : string -> option optype) (d : dict) : Prop :=
  (forall e, In e d -> gate_name (fst (fst e)) /\ tyof (fst (fst e)) <> None /\ N.of_nat (snd (fst e)) < 2 ^ 64) /\ keys_nodup d.
Lemma read_written_lines tyof d : dict_ok tyof d -> forall t, read_lines tyof (map (fun e => las (line_text e)) d) t <> None.
Proof.
  intros [HG _]. induction d as [|e d IH]; intros t; cbn [map read_lines]; [discriminate|].
  destruct (HG e (or_introl eq_refl)) as (G & T & B). rewrite (read_written tyof e G B). destruct e as [[g nc] c]. cbn [fst snd] in *. destruct (tyof g); [|congruence].
  assert (IH' := IH (fun e' I => HG e' (or_intror I))). destruct (cost_read c); apply IH'.
Qed.
Lemma first_written tyof d ty n : dict_ok tyof d -> (forall e, In e d -> tyof (fst (fst e)) <> Some ty) ->
  first_entry tyof (map (fun e => las (line_text e)) d) (ty, n) = None.
Proof.
  intros [HG _]. induction d as [|e d IH]; intros H; cbn [map first_entry]; [reflexivity|].
  destruct (HG e (or_introl eq_refl)) as (G & T & B). rewrite (read_written tyof e G B).
  assert (IH' : first_entry tyof (map (fun e => las (line_text e)) d) (ty, n) = None) by (apply IH; [intros e' I; apply HG; now right|intros e' I; apply H; now right]).
  assert (HE := H e (or_introl eq_refl)). destruct e as [[g nc] c]. cbn [fst snd] in *. destruct (tyof g) as [ty'|]; [|congruence]. destruct (cost_read c); [|exact IH'].
  destruct (key_eqb (ty', N.of_nat nc) (ty, n)) eqn:K; [|exact IH']. apply key_eqb_eq in K. congruence.
Qed.
Lemma first_written_some tyof d g ty nc : dict_ok tyof d -> tyof g = Some ty -> (forall e, In e d -> tyof (fst (fst e)) = Some ty -> fst (fst e) = g) ->
  first_entry tyof (map (fun e => las (line_text e)) d) (ty, N.of_nat nc) = match dget d (g, nc) with Some c => cost_read c | None => None end.
Proof.
  intros [HG HN] Tg. induction d as [|[[g' nc'] c] d IH]; intros H; cbn [map first_entry dget]; [reflexivity|].
  destruct (HG _ (or_introl eq_refl)) as (G & T & B). rewrite (read_written tyof _ G B). cbn [fst snd] in *. unfold keys_nodup in HN. cbn [map fst] in HN. apply NoDup_cons_iff in HN as [HN HN'].
  assert (IH' : first_entry tyof (map (fun e => las (line_text e)) d) (ty, N.of_nat nc) = match dget d (g, nc) with Some c => cost_read c | None => None end)
    by (apply IH; [intros e' I; apply HG; now right|exact HN'|intros e' I; apply H; now right]).
  destruct (tyof g') as [ty'|] eqn:Tg'; [|congruence]. destruct (pkey_eqb (g', nc') (g, nc)) eqn:P.
  - apply pkey_eqb_eq in P. injection P as -> ->. rewrite Tg in Tg'. injection Tg' as <-. assert (D : dget d (g, nc) = None) by now apply dget_none.
    destruct (cost_read c); [|now rewrite IH', D]. assert (K : key_eqb (ty, N.of_nat nc) (ty, N.of_nat nc) = true) by now apply key_eqb_eq. now rewrite K.
  - assert (K : key_eqb (ty', N.of_nat nc') (ty, N.of_nat nc) = false).
    { destruct (key_eqb (ty', N.of_nat nc') (ty, N.of_nat nc)) eqn:K; [|reflexivity]. exfalso. apply key_eqb_eq in K. injection K as -> Q. apply Nat2N.inj in Q. subst nc'.
      assert (Q := H _ (or_introl eq_refl) Tg'). cbn in Q. subst. rewrite pkey_eqb_refl in P. discriminate. }
    destruct (cost_read c); [rewrite K|]; exact IH'.
Qed.
Lemma dict_roundtrip tyof f v d : one_line f -> one_line v -> dict_ok tyof d -> exists t, read_profile tyof (write_profile_data_to_file f v d) = Some t /\
  (forall g ty nc, tyof g = Some ty -> (forall e, In e d -> tyof (fst (fst e)) = Some ty -> fst (fst e) = g) ->
     lookup t (ty, N.of_nat nc) = match dget d (g, nc) with Some c => cost_read c | None => None end) /\
  (forall ty n, (forall e, In e d -> tyof (fst (fst e)) <> Some ty) -> lookup t (ty, n) = None).
Proof.
  intros Hf Hv HD. unfold read_profile. rewrite split_written; auto; [|intros e I; now apply HD].
  change (read_lines tyof (las ("# " ++ f ++ ", Qiskit version: " ++ v) :: map (fun e => las (line_text e)) d) []) with (read_lines tyof (map (fun e => las (line_text e)) d) []).
  destruct (read_lines tyof (map (fun e => las (line_text e)) d) []) as [t|] eqn:E; [|exfalso; exact (read_written_lines tyof d HD [] E)].
  exists t. split; [reflexivity|]. split.
  - intros g ty nc T H. rewrite (first_line_wins _ _ _ _ (ty, N.of_nat nc) E). cbn [lookup]. now apply first_written_some.
  - intros ty n H. rewrite (first_line_wins _ _ _ _ (ty, n) E). cbn [lookup]. now apply first_written.
Qed.

Lemma profile_gate_names g : In g profile_gates -> gate_name g.
Proof.
  assert (HG : forall a s, white a = false -> a <> "#"%char -> Forall (fun c => white c = false) (list_ascii_of_string s) -> gate_name (String a s)).
  { intros a s H1 H2 H3. split; [split; [discriminate|now constructor]|]. intros r E. injection E as -> _. contradiction. }
  intros I. vm_compute in I. repeat (destruct I as [<-|I]; [apply HG; [reflexivity|discriminate|repeat constructor]|]). destruct I.
Qed.
Lemma profile_read cost solve tyof level m d f v : one_line f -> one_line v ->
  (forall g, In g profile_gates -> tyof g <> None) -> (forall g g', In g profile_gates -> In g' profile_gates -> tyof g = tyof g' -> g = g') ->
  profile_data cost solve level m = Some d -> exists t, read_profile tyof (write_profile_data_to_file f v d) = Some t /\
  (forall g ty nc, In g profile_gates -> tyof g = Some ty -> lookup t (ty, N.of_nat nc) = match dget d (g, nc) with Some c => cost_read c | None => None end) /\
  (forall ty n, (forall g, In g profile_gates -> tyof g <> Some ty) -> lookup t (ty, n) = None).
Proof.
  intros Hf Hv HT HI E. assert (HN : forall e, In e d -> In (fst (fst e)) profile_gates /\ (snd (fst e) < 128)%nat).
  { intros [[g nc] c] I. cbn [fst snd]. destruct (dget d (g, nc)) as [w|] eqn:D; [|exfalso; exact (dget_in_rev _ _ _ I D)].
    split; [exact (profile_names cost solve level m d g nc w E D)|exact (profile_bound cost solve level m d g nc w E D)]. }
  destruct (dict_roundtrip tyof f v d Hf Hv) as (t & R & H1 & H2).
  { split; [|exact (profile_nodup cost solve level m d E)]. intros e I. destruct (HN e I) as [P B]. split; [now apply profile_gate_names|]. split; [now apply HT|lia]. }
  exists t. split; [exact R|]. split.
  - intros g ty nc P T. apply H1; auto. intros e I T'. apply HI; auto; [now apply HN|congruence].
  - intros ty n H. apply H2. intros e I. apply H. now apply HN.
Qed.
