(** Properties C36, C37, C38: gate-cost profiles, the built-in cost function, the proportional scheme. *)
From Coq Require Import String Ascii List Bool NArith.
From Verif Require Import Schemes SchemesSpec SchemesProofs SchemesProofs2 SchemesProofs3.
Import ListNotations.
Local Open Scope N_scope.

(** ** C36 *)
(** names used by the examples *)
Definition demo_names (s : string) : option optype :=
  if String.eqb s "x" then Some TX else if String.eqb s "p" then Some TP else if String.eqb s "h" then Some TH else None.

(** reading a file yields, for every gate and number of controls, the cost on the first such line *)
Theorem C36_first_line : forall (tyof : string -> option optype) (ls : list pline) (t : table) (ty : optype) (n : N),
  Forall pline_ok ls -> read_profile tyof (show_file ls) = Some t ->
  lookup t (ty, n) = first_cost tyof ls ty n.
Proof. exact profile_first_line. Qed.
Print Assumptions C36_first_line.
Example C36_first_line_example :
  let ls := [PComment " demo"; PEntry "" "x" " " 1 " " 5 ""; PBlank ""; PEntry "  " "p" "   " 12 (String "009" "") 340 " ignored"; PBlank (String "009" ""); PEntry "" "x" " " 1 " " 6 ""] in
  Forall pline_ok ls /\
  exists t, read_profile demo_names (show_file ls) = Some t /\ lookup t (TX, 1) = Some 5 /\ lookup t (TP, 12) = Some 340 /\ lookup t (TH, 0) = None.
Proof.
  split; [|eexists; vm_compute; repeat split].
  assert (HB : forall s, forallb white (list_ascii_of_string s) = true -> existsb (Ascii.eqb "010"%char) (list_ascii_of_string s) = false -> blanks s).
  { intros s H1 H2. rewrite forallb_forall in H1. split; [now apply Forall_forall|].
    intros I. enough (existsb (Ascii.eqb "010"%char) (list_ascii_of_string s) = true) by congruence. apply existsb_exists. eexists. split; [exact I|reflexivity]. }
  assert (HG : forall a, white a = false -> a <> "#"%char -> gate_name (String a "")).
  { intros a H1 H2. split; [split; [discriminate|repeat constructor; exact H1]|]. intros r E. injection E as -> _. contradiction. }
  assert (HO : forall s, existsb (Ascii.eqb "010"%char) (list_ascii_of_string s) = false -> one_line s).
  { intros s H2 I. enough (existsb (Ascii.eqb "010"%char) (list_ascii_of_string s) = true) by congruence. apply existsb_exists. eexists. split; [exact I|reflexivity]. }
  assert (HE : forall l a s1 n s2 c t, blanks l -> blanks s1 -> s1 <> ""%string -> blanks s2 -> s2 <> ""%string -> gate_name (String a "") ->
    (n < 2 ^ 64) -> (c < 2 ^ 64) -> trailing_ok t -> one_line t -> pline_ok (PEntry l (String a "") s1 n s2 c t)).
  { intros. cbn [pline_ok]. tauto. }
  repeat (apply Forall_cons; [|]); try apply Forall_nil; try (apply HO; reflexivity).
  all: try (apply HE; try (apply HB; reflexivity); try discriminate; try (apply HG; [reflexivity|discriminate]); try reflexivity; try (apply HO; reflexivity)).
  all: try (left; reflexivity). all: try (right; do 2 eexists; split; reflexivity). all: try (apply HB; reflexivity).
Qed.

(** comment and blank lines anywhere in the file have no effect *)
Theorem C36_comments_ignored : forall (tyof : string -> option optype) (l1 : list pline) (l : pline) (l2 : list pline),
  Forall pline_ok (l1 ++ l :: l2) -> not_entry l = true ->
  read_profile tyof (show_file (l1 ++ l :: l2)) = read_profile tyof (show_file (l1 ++ l2)).
Proof. exact profile_comments. Qed.
Print Assumptions C36_comments_ignored.

(** the last line counts whether or not it ends with a newline *)
Theorem C36_final_newline : forall (tyof : string -> option optype) (content : string), read_profile tyof (content ++ nl) = read_profile tyof content.
Proof. exact profile_final_newline. Qed.
Print Assumptions C36_final_newline.
Example C36_final_newline_example : exists t, read_profile demo_names "x 1 5" = Some t /\ lookup t (TX, 1) = Some 5.
Proof. eexists. vm_compute. repeat split. Qed.

(** an exception leaves the constructor iff some line names an unknown gate *)
Theorem C36_unknown_gate_throws : forall (tyof : string -> option optype) (ls : list pline), Forall pline_ok ls ->
  (read_profile tyof (show_file ls) = None <-> exists l g, In l ls /\ entry_name l = Some g /\ tyof g = None).
Proof. exact profile_throws. Qed.
Print Assumptions C36_unknown_gate_throws.
Example C36_throw_example : read_profile demo_names (show_file [PEntry "" "x" " " 1 " " 5 ""; PEntry "" "foo" " " 1 " " 5 ""]) = None.
Proof. vm_compute. reflexivity. Qed.

(** what the Python generator writes is what the C++ parser reads *)
Theorem C36_profile_roundtrip : forall (tyof : string -> option optype) (filename version : string) (data : list ((string * N) * N)),
  one_line filename -> one_line version -> good_data tyof data ->
  exists t, read_profile tyof (write_profile filename version data) = Some t /\
            forall ty n c, lookup t (ty, n) = Some c <-> exists e, In e data /\ typed tyof e (ty, n) c.
Proof. exact profile_roundtrip. Qed.
Print Assumptions C36_profile_roundtrip.
Example C36_roundtrip_hyps : good_data demo_names [(("x"%string, 1), 5); (("p"%string, 12), 340)].
Proof.
  assert (HG : forall a s, white a = false -> a <> "#"%char -> Forall (fun c => white c = false) (list_ascii_of_string s) -> gate_name (String a s)).
  { intros a s H1 H2 H3. split; [split; [discriminate|now constructor]|]. intros r E. injection E as -> _. contradiction. }
  split; [|split].
  - intros e [<-|[<-|[]]]; cbn [fst snd]; (split; [apply HG; [reflexivity|discriminate|constructor]|split; [discriminate|split; reflexivity]]).
  - intros e1 e2 [<-|[<-|[]]] [<-|[<-|[]]]; cbn; try reflexivity; discriminate.
  - constructor; [|constructor; [intros []|constructor]]. intros [H|[]]. discriminate.
Qed.
Example C36_roundtrip_example :
  read_profile demo_names (write_profile "f.profile" "1.0" [(("x"%string, 1), 5); (("p"%string, 12), 340)])
  = Some [((TX, 1), 5); ((TP, 12), 340)].
Proof. vm_compute. reflexivity. Qed.

(** the scheme applies one gate of the first circuit and as many of the second as the table says, one if it says nothing *)
Theorem C36_gatecost_step : forall (t : table) (fusion : bool) (v : opview),
  (fst (gatecost_scheme t fusion v) = 1) /\
  (forall c, lookup t (v_type v, v_nc v) = Some c -> fusion = false \/ v_used v <> 1 -> snd (gatecost_scheme t fusion v) = c) /\
  (lookup t (v_type v, v_nc v) = None -> snd (gatecost_scheme t fusion v) = 1) /\
  (fusion = true -> v_used v = 1 -> snd (gatecost_scheme t fusion v) = 1).
Proof.
  intros t fusion v. split; [apply gatecost_pos|]. unfold gatecost_scheme. destruct t as [|e t]; [cbn; repeat split; congruence|].
  split; [|split].
  - intros c -> [->|H]; [reflexivity|]. apply N.eqb_neq in H. now rewrite H, andb_false_r.
  - intros ->. destruct (fusion && _); reflexivity.
  - intros -> ->. reflexivity.
Qed.
Print Assumptions C36_gatecost_step.

(** a table computed from a cost function contains exactly the gates of both circuits with their costs *)
Theorem C36_table_from_cost : forall (cost : optype -> N -> N) (ops1 ops2 : list opview) (ty : optype) (n : N),
  ((exists v, In v (ops1 ++ ops2) /\ v_type v = ty /\ v_nc v = n) -> lookup (table_from_cost cost ops1 ops2) (ty, n) = Some (cost ty n)) /\
  ((~ exists v, In v (ops1 ++ ops2) /\ v_type v = ty /\ v_nc v = n) -> lookup (table_from_cost cost ops1 ops2) (ty, n) = None).
Proof. exact table_from_cost_In. Qed.
Print Assumptions C36_table_from_cost.

(** ** C37 *)
(** the recursion ends for every key *)
Theorem C37_cost_total : forall (g : optype) (nc : N), legacyCost g nc <> None.
Proof. exact cost_total. Qed.
Print Assumptions C37_cost_total.

(** below the overflow bound the cost is its closed form *)
Theorem C37_cost_closed_form : forall (g : optype) (nc : N), nc <= 2 ^ 56 -> legacyCost g nc = Some (closed_cost g nc).
Proof. exact cost_closed. Qed.
Print Assumptions C37_cost_closed_form.

(** ... at least one, and monotone in the number of controls *)
Theorem C37_cost_positive_monotone : forall (g : optype) (a b : N) (ca cb : N), a <= b -> b <= 2 ^ 56 ->
  legacyCost g a = Some ca -> legacyCost g b = Some cb -> 1 <= ca /\ ca <= cb.
Proof.
  intros g a b ca cb H1 H2 HA HB. rewrite cost_closed in HA by (eapply N.le_trans; eassumption).
  rewrite cost_closed in HB by exact H2. injection HA as <-. injection HB as <-. split; [apply closed_pos|now apply closed_mono].
Qed.
Print Assumptions C37_cost_positive_monotone.
Example C37_cost_example : legacyCost TX 5 = Some 56 /\ legacyCost TH 2 = Some 32 /\ legacyCost TiSWAP 1 = Some 50.
Proof. vm_compute. auto. Qed.

(** the bound is needed: with 2^63+1 controls the 64-bit arithmetic wraps around to cost zero *)
Theorem C37_unbounded_positive_refuted : ~ (forall g nc c, nc < 2 ^ 64 -> legacyCost g nc = Some c -> 1 <= c).
Proof. intros H. apply (H TX (2 ^ 63 + 1) 0); [reflexivity|apply cost_wraps|reflexivity]. Qed.
Print Assumptions C37_unbounded_positive_refuted.

(** ** C38 *)
(** with [n1], [n2] gates left, the proportional scheme takes one gate of the shorter circuit and [r >= 1] of the longer one,
    where [r] times the shorter length is within half the shorter length of the longer length (subtraction is truncated) *)
Theorem C38_proportional_in_step : forall (fusion : bool) (v : opview) (n1 n2 a b : N),
  0 < n1 -> 0 < n2 -> n1 < 2 ^ 63 -> n2 < 2 ^ 63 -> fusion && (v_used v =? 1) = false ->
  proportional_scheme fusion v n1 n2 = (a, b) ->
  1 <= a /\ 1 <= b /\
  (n2 <= n1 -> b = 1 /\ 2 * (a * n2 - n1) <= n2 /\ 2 * (n1 - a * n2) <= n2) /\
  (n1 < n2 -> a = 1 /\ 2 * (b * n1 - n2) <= n1 /\ 2 * (n2 - b * n1) <= n1).
Proof. exact proportional_in_step. Qed.
Print Assumptions C38_proportional_in_step.
Example C38_example : proportional_scheme false (mkView TX 1 2) 7 2 = (4, 1) /\ proportional_scheme false (mkView TX 1 2) 3 10 = (1, 3)
  /\ proportional_scheme true (mkView TX 0 1) 3 10 = (1, 1).
Proof. vm_compute. auto. Qed.
