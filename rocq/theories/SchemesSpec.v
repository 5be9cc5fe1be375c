(** Specification vocabulary for the schemes: closed form of the cost function, shape of profile lines. No proofs. *)
From Coq Require Import String Ascii List Bool NArith.
From Verif Require Import Schemes.
Import ListNotations.
Local Open Scope N_scope.

(** elementary gates needed for a multi-controlled X *)
Definition xcost (nc : N) : N := if nc <=? 1 then 1 else 14 * (nc - 1).
(** closed form of the built-in cost *)
Definition closed_cost (g : optype) (nc : N) : N :=
  match g with
  | TX => xcost nc
  | TU | TU2 | TV | TVdg | TRX | TRY | TH | TSX | TSXdg => if nc =? 0 then 1 else 2 * xcost nc + 4
  | TP | TS | TSdg | TT | TTdg | TRZ => if nc =? 0 then 1 else 2 * xcost nc + 3
  | TY | TZ => if nc =? 0 then 1 else xcost nc + 2
  | TSWAP => xcost nc + 2
  | TiSWAP => 2 * xcost (nc + 1) + (if nc =? 0 then 4 else 8 * xcost nc + 14)
  | TPeres | TPeresdg => xcost (nc + 1) + xcost nc
  | _ => 1
  end.

(** blanks: space, tab, line feed, vertical tab, form feed, carriage return *)
Definition white (c : ascii) : bool := existsb (Ascii.eqb c) [" "; "009"; "010"; "011"; "012"; "013"]%char.
(** a gate name consists of characters that are not blanks *)
Definition word (s : string) : Prop := s <> ""%string /\ Forall (fun c => white c = false) (list_ascii_of_string s).
(** a gate name that does not look like a comment *)
Definition gate_name (s : string) : Prop := word s /\ forall r, s <> String "#" r.
(** no newline inside *)
Definition one_line (s : string) : Prop := ~ In "010"%char (list_ascii_of_string s).

(** the first line that gives a cost for [k] *)
Fixpoint first_entry (tyof : string -> option optype) (ls : list (list ascii)) (k : key) : option N :=
  match ls with
  | [] => None
  | l :: r => match read_line tyof l with
              | LEntry k' c => if key_eqb k' k then Some c else first_entry tyof r k
              | _ => first_entry tyof r k
              end
  end.

(** profile data as the C++ side should see it *)
Definition typed (tyof : string -> option optype) (e : (string * N) * N) (k : key) (c : N) : Prop :=
  tyof (fst (fst e)) = Some (fst k) /\ snd (fst e) = snd k /\ snd e = c.

(** well-formed profile data: names are words known to the reader, different names mean different
    gates, numbers fit into 64 bits, keys are unique (a Python dict) *)
Definition good_data (tyof : string -> option optype) (data : list ((string * N) * N)) : Prop :=
  (forall e, In e data -> gate_name (fst (fst e)) /\ tyof (fst (fst e)) <> None /\ snd (fst e) < 2 ^ 64 /\ snd e < 2 ^ 64) /\
  (forall e1 e2, In e1 data -> In e2 data -> tyof (fst (fst e1)) = tyof (fst (fst e2)) -> fst (fst e1) = fst (fst e2)) /\
  NoDup (map fst data).

(** ** profile files as a user sees them *)
Inductive pline :=
| PComment (text : string)                                    (* # text *)
| PBlank (blanks : string)                                    (* an empty line, or only blanks *)
| PEntry (lead name sep1 : string) (nc : N) (sep2 : string) (cost : N) (trailing : string).
  (* blanks, name, blanks, controls, blanks, cost, then anything *)
Local Open Scope string_scope.
Definition show_line (l : pline) : string :=
  match l with
  | PComment s => "#" ++ s
  | PBlank s => s
  | PEntry l g s1 n s2 c t => l ++ g ++ s1 ++ dec n ++ s2 ++ dec c ++ t
  end.
Definition show_file (ls : list pline) : string := String.concat "" (map (fun l => show_line l ++ nl) ls).
(** a line that holds no entry: a comment or a blank line *)
Definition not_entry (l : pline) : bool := match l with PEntry _ _ _ _ _ _ _ => false | _ => true end.
(** the text after the cost is absent or starts with a blank *)
Definition trailing_ok (t : string) : Prop :=
  t = "" \/ exists c r, t = String c r /\ white c = true.
(** any number of blanks, without a line break *)
Definition blanks (s : string) : Prop := Forall (fun c => white c = true) (list_ascii_of_string s) /\ one_line s.
Definition pline_ok (l : pline) : Prop :=
  match l with
  | PComment s => one_line s
  | PBlank s => blanks s
  | PEntry l g s1 n s2 c t =>
      blanks l /\ (blanks s1 /\ s1 <> "") /\ (blanks s2 /\ s2 <> "") /\ gate_name g /\ (n < 2 ^ 64)%N /\ (c < 2 ^ 64)%N /\ trailing_ok t /\ one_line t
  end.
(** the cost on the first line for gate [ty] with [n] controls *)
Fixpoint first_cost (tyof : string -> option optype) (ls : list pline) (ty : optype) (n : N) : option N :=
  match ls with
  | [] => None
  | PEntry _ g _ m _ c _ :: r =>
      match tyof g with
      | Some ty' => if optype_eqb ty' ty && (m =? n)%N then Some c else first_cost tyof r ty n
      | None => first_cost tyof r ty n
      end
  | _ :: r => first_cost tyof r ty n
  end.
Definition entry_name (l : pline) : option string := match l with PEntry _ g _ _ _ _ _ => Some g | _ => None end.
