(** Profile files: reading back what was written. *)
From Coq Require Import String Ascii Bool NArith Lia Decimal DecimalString DecimalN DecimalPos DecimalFacts Arith List.
From Verif Require Import Schemes SchemesSpec SchemesProofs SchemesProofs2.
Import ListNotations.
Local Open Scope N_scope.

Notation las := list_ascii_of_string.

Lemma las_sla l : las (string_of_list_ascii l) = l.
Proof. induction l as [|c l IH]; [reflexivity|]. cbn. now rewrite IH. Qed.

Lemma white_ws c : white c = is_ws c.
Proof. destruct c as [[] [] [] [] [] [] [] []]; reflexivity. Qed.
Lemma white_words b l : Forall (fun c => white c = b) l -> Forall (fun c => is_ws c = b) l.
Proof. apply Forall_impl. intros c. now rewrite white_ws. Qed.
Lemma ws_not_digit c : is_ws c = true -> digit c = None.
Proof. destruct c as [[] [] [] [] [] [] [] []]; cbn; intros H; try discriminate; reflexivity. Qed.
Lemma digit_not_ws c d : digit c = Some d -> is_ws c = false.
Proof. intros H. destruct (is_ws c) eqn:E; [|reflexivity]. apply ws_not_digit in E. congruence. Qed.

Lemma string_uint_digits u : Forall (fun c => digit c <> None) (las (NilEmpty.string_of_uint u)).
Proof. induction u; cbn [NilEmpty.string_of_uint las]; constructor; try exact IHu; vm_compute; discriminate. Qed.
Lemma dec_digits n : Forall (fun c => digit c <> None) (las (dec n)).
Proof. destruct (dec_nilempty n) as (u & -> & _). apply string_uint_digits. Qed.
Lemma dec_one_line n : ~ In "010"%char (las (dec n)).
Proof. intros H. pose proof (dec_digits n) as HD. rewrite Forall_forall in HD. apply (HD _ H). reflexivity. Qed.

Lemma read_num_dec n rest : n < 2 ^ 64 -> stops rest -> read_num (" "%char :: las (dec n) ++ rest) = Some (n, rest).
Proof.
  intros HN HR. destruct (dec_nilempty n) as (u & -> & HU & HNil).
  unfold read_num. change (skip_ws (" "%char :: ?l)) with (skip_ws l).
  assert (H : exists c r d, (las (NilEmpty.string_of_uint u) ++ rest = c :: r)%list /\ digit c = Some d /\ c <> "-"%char /\ c <> "+"%char).
  { destruct u; [contradiction|..]; cbn [NilEmpty.string_of_uint las app]; do 3 eexists; (split; [reflexivity|split; [vm_compute; reflexivity|split; discriminate]]). }
  destruct H as (c & r & d & E & HD & HC1 & HC2).
  pose proof (read_digits_val u rest 0 HR) as HV. rewrite val_zero, HU in HV. rewrite E in HV |- *.
  cbn [skip_ws]. rewrite (digit_not_ws c d HD).
  assert (HM : (match c :: r with "-"%char :: r0 => (true, r0) | "+"%char :: r0 => (false, r0) | _ => (false, c :: r) end) = (false, c :: r)).
  { destruct c as [[] [] [] [] [] [] [] []]; try reflexivity; exfalso; (now apply HC1) || (now apply HC2). }
  rewrite HM, HD, HV. apply N.ltb_lt in HN. rewrite HN. reflexivity.
Qed.

Lemma read_token_word w rest : Forall (fun c => is_ws c = false) w -> match rest with [] => True | c :: _ => is_ws c = true end ->
  read_token (w ++ rest) = (w, rest).
Proof.
  intros HW HR. induction HW as [|c w HC HW IH]; cbn [app read_token].
  - destruct rest as [|c r]; [reflexivity|]. cbn. now rewrite HR.
  - now rewrite HC, IH.
Qed.

Lemma trailing_stops t : trailing_ok t -> stops (las t).
Proof. intros [->|(c & r & -> & H)]; [exact I|]. rewrite white_ws in H. cbn. now apply ws_not_digit. Qed.

Lemma skip_ws_app l r : Forall (fun c => is_ws c = true) l -> skip_ws (l ++ r) = skip_ws r.
Proof. intros H. induction H as [|c l HC HL IH]; [reflexivity|]. cbn. now rewrite HC. Qed.
Lemma read_num_blanks s n rest : Forall (fun c => is_ws c = true) s -> n < 2 ^ 64 -> stops rest ->
  read_num (s ++ las (dec n) ++ rest) = Some (n, rest).
Proof.
  intros HS HN HR. rewrite <- (read_num_dec n rest HN HR). unfold read_num. rewrite skip_ws_app by assumption. reflexivity.
Qed.
Lemma blanks_stops s rest : blanks s -> s <> ""%string -> stops (las s ++ rest).
Proof.
  intros [H _] HN. apply white_words in H. destruct s as [|c s]; [contradiction|]. inversion H as [|? ? HC _]; subst. cbn. now apply ws_not_digit.
Qed.

Lemma read_line_entry tyof l g s1 n s2 c t : pline_ok (PEntry l g s1 n s2 c t) ->
  read_line tyof (las (show_line (PEntry l g s1 n s2 c t))) =
  match tyof g with Some ty => LEntry (ty, n) c | None => LThrow end.
Proof.
  intros (HL & [HS1 HE1] & [HS2 HE2] & [[HG1 HG2] HG3] & HN & HC & HT & _). apply white_words in HG2. cbn [show_line]. rewrite !las_app.
  destruct HL as [HL _]. apply white_words in HL.
  destruct g as [|a g]; [contradiction|]. cbn [las] in *. inversion HG2 as [|? ? HA HW]; subst.
  assert (HH : a <> "#"%char) by (intros ->; now apply (HG3 g)).
  assert (HM : forall x, read_line tyof (las l ++ a :: x) =
    let (tok, r) := read_token (a :: x) in
    match tok with [] => LSkip | _ => match tyof (string_of_list_ascii tok) with None => LThrow | Some ty =>
      match read_num r with None => LSkip | Some (nc, r2) => match read_num r2 with None => LSkip | Some (k, _) => LEntry (ty, nc) k end end end end).
  { intros x. assert (E : skip_ws (las l ++ a :: x) = a :: x) by (rewrite skip_ws_app by assumption; cbn [skip_ws]; now rewrite HA).
    unfold read_line. rewrite E. destruct (las l) as [|b m]; cbn [app].
    - destruct a as [[] [] [] [] [] [] [] []]; try reflexivity. now contradict HH.
    - inversion HL as [|? ? HB _]; subst. destruct b as [[] [] [] [] [] [] [] []]; try reflexivity. discriminate HB. }
  cbn [app]. rewrite HM. change (a :: las g ++ ?x)%list with ((a :: las g) ++ x)%list.
  rewrite read_token_word.
  2:{ now constructor. }
  2:{ destruct HS1 as [H1 _]. apply white_words in H1. destruct s1 as [|d s1]; [contradiction|]. inversion H1; subst. cbn. assumption. }
  change (string_of_list_ascii (a :: las g)) with (String a (string_of_list_ascii (las g))). rewrite sla_las.
  destruct (tyof (String a g)); [|reflexivity].
  rewrite read_num_blanks; [|apply white_words, HS1|exact HN|now apply blanks_stops].
  rewrite read_num_blanks; [reflexivity|apply white_words, HS2|exact HC|now apply trailing_stops].
Qed.

Lemma read_line_comment tyof s : read_line tyof (las (show_line (PComment s))) = LSkip.
Proof. reflexivity. Qed.
Lemma skip_ws_all l : Forall (fun c => is_ws c = true) l -> skip_ws l = [].
Proof. intros H. induction H as [|c l HC HL IH]; [reflexivity|]. cbn. now rewrite HC. Qed.
Lemma read_line_blank tyof s : Forall (fun c => white c = true) (las s) -> read_line tyof (las (show_line (PBlank s))) = LSkip.
Proof.
  intros H. apply white_words in H. cbn [show_line]. pose proof (skip_ws_all _ H) as HS. destruct H as [|c l HC HL]; [reflexivity|].
  unfold read_line. rewrite HS. cbn. destruct c as [[] [] [] [] [] [] [] []]; try reflexivity; discriminate.
Qed.

Lemma word_one_line g : word g -> ~ In "010"%char (las g).
Proof. intros [_ H] HI. apply white_words in H. rewrite Forall_forall in H. specialize (H _ HI). discriminate. Qed.

Lemma show_line_one_line l : pline_ok l -> ~ In "010"%char (las (show_line l)).
Proof.
  destruct l as [s|s|l g s1 n s2 c t]; cbn [pline_ok show_line].
  - intros H. rewrite las_app. cbn. intros [E|HI]; [discriminate|now apply H].
  - intros [_ H]. exact H.
  - intros ([_ HL] & [[_ H1] _] & [[_ H2] _] & [HW _] & _ & _ & _ & HT). rewrite !las_app, !in_app_iff. intros [H|[H|[H|[H|[H|[H|H]]]]]].
    + now apply HL.
    + now apply (word_one_line g).
    + now apply H1.
    + now apply (dec_one_line n).
    + now apply H2.
    + now apply (dec_one_line c).
    + now apply HT.
Qed.

Lemma las_concat l : las (String.concat "" l) = List.concat (map las l).
Proof.
  induction l as [|s l IH]; [reflexivity|]. destruct l as [|s' l].
  - cbn. now rewrite app_nil_r.
  - change (String.concat "" (s :: s' :: l)) with (s ++ "" ++ String.concat "" (s' :: l))%string.
    rewrite !las_app, IH. reflexivity.
Qed.

Lemma split_file ls : Forall pline_ok ls -> split_lines (las (show_file ls)) [] = map (fun l => las (show_line l)) ls.
Proof.
  intros H. unfold show_file. rewrite las_concat, map_map. induction H as [|l ls HL HLs IH]; [reflexivity|].
  cbn [map List.concat]. rewrite las_app, <- app_assoc. change (las nl) with ["010"%char]. cbn [app].
  rewrite split_line by now apply show_line_one_line. rewrite IH. reflexivity.
Qed.

Lemma read_file_throws tyof ls t : Forall pline_ok ls ->
  (read_lines tyof (map (fun l => las (show_line l)) ls) t = None <->
   exists l g, In l ls /\ entry_name l = Some g /\ tyof g = None).
Proof.
  intros H. revert t. induction H as [|l ls HL HLs IH]; intros t; cbn [map read_lines].
  - split; [discriminate|intros (? & ? & [] & _)].
  - assert (HS : forall _ : table, (exists l0 g, In l0 ls /\ entry_name l0 = Some g /\ tyof g = None) -> exists l0 g, In l0 (l :: ls) /\ entry_name l0 = Some g /\ tyof g = None).
    { intros _ (l0 & g & HI & HE). exists l0, g. split; [now right|exact HE]. }
    destruct l as [s|s|le g s1 n s2 c tr].
    + rewrite read_line_comment, IH. split; [apply (HS t)|]. intros (l0 & g & [<-|HI] & HE); [now destruct HE|eauto].
    + rewrite read_line_blank by apply HL. rewrite IH. split; [apply (HS t)|]. intros (l0 & g & [<-|HI] & HE); [now destruct HE|eauto].
    + rewrite read_line_entry by exact HL. destruct (tyof g) eqn:E.
      * rewrite IH. split; [apply (HS t)|]. intros (l0 & g' & [<-|HI] & HE); [|eauto]. destruct HE as [HE HE2].
        injection HE as <-. congruence.
      * split; [|reflexivity]. intros _. exists (PEntry le g s1 n s2 c tr), g. split; [now left|split; [reflexivity|exact E]].
Qed.

Lemma first_entry_cost tyof ls ty n : Forall pline_ok ls ->
  first_entry tyof (map (fun l => las (show_line l)) ls) (ty, n) = first_cost tyof ls ty n.
Proof.
  intros H. induction H as [|l ls HL HLs IH]; [reflexivity|]. cbn [map first_entry first_cost]. destruct l as [s|s|le g s1 m s2 c tr].
  - exact IH.
  - rewrite read_line_blank by apply HL. exact IH.
  - rewrite read_line_entry by exact HL. destruct (tyof g) as [ty'|]; [|exact IH].
    unfold key_eqb. cbn [fst snd]. destruct (optype_eqb ty' ty && (m =? n)); [reflexivity|exact IH].
Qed.

Theorem profile_throws tyof ls : Forall pline_ok ls ->
  (read_profile tyof (show_file ls) = None <-> exists l g, In l ls /\ entry_name l = Some g /\ tyof g = None).
Proof. intros H. unfold read_profile. rewrite split_file by assumption. now apply read_file_throws. Qed.

Theorem profile_first_line tyof ls t ty n : Forall pline_ok ls -> read_profile tyof (show_file ls) = Some t ->
  lookup t (ty, n) = first_cost tyof ls ty n.
Proof.
  intros H HR. unfold read_profile in HR. rewrite split_file in HR by assumption.
  rewrite (first_line_wins _ _ _ _ (ty, n) HR). cbn [lookup]. now apply first_entry_cost.
Qed.

Lemma read_lines_skip tyof l1 l l2 t : read_line tyof l = LSkip -> read_lines tyof (l1 ++ l :: l2) t = read_lines tyof (l1 ++ l2) t.
Proof. intros H. rewrite !read_lines_app. destruct (read_lines tyof l1 t); [|reflexivity]. cbn. now rewrite H. Qed.
Theorem profile_comments tyof l1 l l2 : Forall pline_ok (l1 ++ l :: l2) -> not_entry l = true ->
  read_profile tyof (show_file (l1 ++ l :: l2)) = read_profile tyof (show_file (l1 ++ l2)).
Proof.
  intros H HN. unfold read_profile. rewrite !split_file; [|rewrite !Forall_app in *; destruct H as [? H]; inversion H; auto|assumption].
  rewrite !map_app. cbn [map]. apply read_lines_skip. rewrite Forall_app in H. destruct H as [_ H]. inversion H as [|? ? HL _]; subst.
  destruct l; [reflexivity| |discriminate]. apply read_line_blank. apply HL.
Qed.

(** ** the Python writer *)
Definition as_line (e : (string * N) * N) : pline := PEntry "" (fst (fst e)) " " (snd (fst e)) " " (snd e) "".
Lemma str_app_assoc (a b c : string) : ((a ++ b) ++ c = a ++ (b ++ c))%string.
Proof. induction a as [|x a IH]; [reflexivity|]. cbn. now rewrite IH. Qed.
Lemma str_app_nil (a : string) : (a ++ "" = a)%string.
Proof. induction a as [|x a IH]; [reflexivity|]. cbn. now rewrite IH. Qed.
Lemma str_concat_cons s l : (String.concat "" (s :: l) = s ++ String.concat "" l)%string.
Proof. destruct l as [|s' l]; [cbn; now rewrite str_app_nil|reflexivity]. Qed.

Lemma write_show f v data :
  write_profile f v data = show_file (PComment (" " ++ f ++ ", Qiskit version: " ++ v) :: map as_line data).
Proof.
  unfold write_profile, show_file. cbn [map]. rewrite str_concat_cons, map_map.
  assert (E : map write_entry data = map (fun x => show_line (as_line x) ++ nl)%string data).
  { apply map_ext. intros [[g n] c]. unfold write_entry, as_line, show_line. cbn [fst snd]. rewrite str_app_nil, !str_app_assoc. reflexivity. }
  rewrite E. cbn [show_line]. rewrite !str_app_assoc. reflexivity.
Qed.

Lemma one_line_app a b : one_line a -> one_line b -> one_line (a ++ b)%string.
Proof. unfold one_line. rewrite las_app, in_app_iff. tauto. Qed.

Lemma first_cost_data tyof data ty n : good_data tyof data ->
  forall c, first_cost tyof (map as_line data) ty n = Some c <-> exists e, In e data /\ typed tyof e (ty, n) c.
Proof.
  intros (HG & HU & HD). induction data as [|[[g m] d] data IH]; intros c; cbn [map first_cost as_line fst snd].
  - split; [discriminate|intros (? & [] & _)].
  - assert (IH' : forall c, first_cost tyof (map as_line data) ty n = Some c <-> (exists e, In e data /\ typed tyof e (ty, n) c)).
    { apply IH; [intros e HI; apply HG; now right|intros; apply HU; auto; now right|now inversion HD]. }
    destruct (tyof g) as [ty'|] eqn:E.
    2:{ exfalso. destruct (HG _ (or_introl eq_refl)) as (_ & HT & _). now apply HT. }
    destruct (optype_eqb ty' ty && (m =? n)) eqn:EK.
    + apply andb_true_iff in EK. rewrite optype_eqb_eq, N.eqb_eq in EK. destruct EK as [-> ->]. split.
      * intros H. injection H as <-. exists (g, n, d). split; [now left|]. repeat split. exact E.
      * intros (e & [<-|HI] & HT).
        -- destruct HT as (_ & _ & HT). cbn in HT. now subst.
        -- exfalso. destruct HT as (H1 & H2 & _). cbn in H1, H2.
           assert (EG : fst (fst e) = g) by (apply (HU e (g, n, d)); [now right|now left|cbn; congruence]).
           cbn in HD. inversion HD as [|? ? HNI _]; subst. apply HNI. apply in_map_iff. exists e. split; [|exact HI].
           destruct e as [[? ?] ?]. cbn in *. now subst.
    + rewrite IH'. split.
      * intros (e & HI & HT). exists e. split; [now right|exact HT].
      * intros (e & [<-|HI] & HT); [|eauto]. exfalso. destruct HT as (H1 & H2 & _). cbn in H1, H2. subst.
        rewrite E in H1. injection H1 as ->. rewrite N.eqb_refl in EK.
        assert (optype_eqb ty ty = true) by now apply optype_eqb_eq. rewrite H in EK. discriminate.
Qed.

Theorem profile_roundtrip tyof f v data : one_line f -> one_line v -> good_data tyof data ->
  exists t, read_profile tyof (write_profile f v data) = Some t /\
            forall ty n c, lookup t (ty, n) = Some c <-> exists e, In e data /\ typed tyof e (ty, n) c.
Proof.
  intros Hf Hv HG.
  assert (HOK : Forall pline_ok (PComment (" " ++ f ++ ", Qiskit version: " ++ v) :: map as_line data)).
  { constructor.
    - cbn [pline_ok]. repeat apply one_line_app; auto; intros HI; cbn in HI; repeat (destruct HI as [HI|HI]; [discriminate|]); exact HI.
    - rewrite Forall_map, Forall_forall. intros e HI. destruct HG as (HG & _). destruct (HG e HI) as (H1 & H2 & H3 & H4).
      assert (HB : blanks " " /\ " "%string <> ""%string) by (split; [split; [repeat constructor|intros [X|[]]; discriminate]|discriminate]).
      cbn [pline_ok as_line]. split; [split; [constructor|intros []]|]. split; [exact HB|]. split; [exact HB|].
      split; [exact H1|]. split; [exact H3|]. split; [exact H4|]. split; [now left|intros []]. }
  rewrite write_show. destruct (read_profile tyof (show_file (PComment (" " ++ f ++ ", Qiskit version: " ++ v) :: map as_line data))) as [t|] eqn:E.
  - exists t. split; [reflexivity|]. intros ty n c. rewrite (profile_first_line _ _ _ ty n HOK E). cbn [first_cost]. now apply first_cost_data.
  - exfalso. apply (profile_throws _ _ HOK) in E. destruct E as (l & g & [<-|HI] & HE & HT); [discriminate|].
    apply in_map_iff in HI. destruct HI as (e & <- & HI). injection HE as <-. destruct HG as (HG & _). destruct (HG e HI) as (_ & H2 & _). now apply H2.
Qed.

(** ** tables computed from a cost function *)
Lemma populate_lookup cost ops t k :
  lookup (populate_ops cost ops t) k =
  match lookup t k with
  | Some c => Some c
  | None => if existsb (fun v => key_eqb (v_type v, v_nc v) k) ops then Some (cost (fst k) (snd k)) else None
  end.
Proof.
  unfold populate_ops. revert t. induction ops as [|v ops IH]; intros t; cbn [fold_left existsb].
  - destruct (lookup t k); reflexivity.
  - rewrite IH. destruct (lookup t (v_type v, v_nc v)) eqn:E.
    + destruct (lookup t k) eqn:E'; [reflexivity|]. destruct (key_eqb (v_type v, v_nc v) k) eqn:EK; [|reflexivity].
      apply key_eqb_eq in EK. subst. congruence.
    + rewrite lookup_emplace. destruct (lookup t k); [reflexivity|]. destruct (key_eqb (v_type v, v_nc v) k) eqn:EK; [|reflexivity].
      apply key_eqb_eq in EK. subst. reflexivity.
Qed.
Theorem table_from_cost_exact cost ops1 ops2 ty n :
  lookup (table_from_cost cost ops1 ops2) (ty, n) =
  if existsb (fun v => key_eqb (v_type v, v_nc v) (ty, n)) (ops1 ++ ops2) then Some (cost ty n) else None.
Proof.
  unfold table_from_cost. rewrite !populate_lookup, existsb_app. cbn [lookup fst snd].
  destruct (existsb _ ops1); reflexivity.
Qed.
Theorem table_from_cost_In cost ops1 ops2 ty n :
  ((exists v, In v (ops1 ++ ops2) /\ v_type v = ty /\ v_nc v = n) -> lookup (table_from_cost cost ops1 ops2) (ty, n) = Some (cost ty n)) /\
  ((~ exists v, In v (ops1 ++ ops2) /\ v_type v = ty /\ v_nc v = n) -> lookup (table_from_cost cost ops1 ops2) (ty, n) = None).
Proof.
  rewrite table_from_cost_exact. destruct (existsb _ _) eqn:E.
  - split; [reflexivity|]. intros H. exfalso. apply H. apply existsb_exists in E. destruct E as (v & HI & HK).
    apply key_eqb_eq in HK. injection HK as H1 H2. eauto.
  - split; [|reflexivity]. intros (v & HI & H1 & H2). exfalso.
    assert (existsb (fun v => key_eqb (v_type v, v_nc v) (ty, n)) (ops1 ++ ops2) = true); [|congruence].
    apply existsb_exists. exists v. split; [exact HI|]. apply key_eqb_eq. now subst.
Qed.

Theorem cost_wraps : legacyCost TX (2 ^ 63 + 1) = Some 0.
Proof. vm_compute. reflexivity. Qed.

(** a newline at the end of the file makes no difference *)
Lemma split_newline l : forall cur, split_lines (l ++ ["010"%char]) cur = split_lines l cur \/ split_lines (l ++ ["010"%char]) cur = (split_lines l cur ++ [[]])%list.
Proof.
  induction l as [|c l IH]; intros cur; cbn [app split_lines].
  - cbn. destruct cur; [right|left]; reflexivity.
  - destruct (Ascii.eqb c "010").
    + destruct (IH []) as [-> | ->]; [left|right]; reflexivity.
    + apply IH.
Qed.
Lemma read_lines_blank tyof ls : forall t, read_lines tyof (ls ++ [[]])%list t = read_lines tyof ls t.
Proof. induction ls as [|l ls IH]; intros t; cbn [app read_lines]; [reflexivity|]. destruct (read_line tyof l); auto. Qed.
Theorem profile_final_newline tyof content : read_profile tyof (content ++ nl) = read_profile tyof content.
Proof.
  unfold read_profile. rewrite las_app. change (las nl) with ["010"%char].
  destruct (split_newline (las content) []) as [-> | ->]; [reflexivity|apply read_lines_blank].
Qed.
