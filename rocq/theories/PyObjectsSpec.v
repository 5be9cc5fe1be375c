(** Specification vocabulary for property C83: which object a statement changes. No proofs in this file. *)
From Coq Require Import String List Bool.
From Verif Require Import PyConfig PyObjects.
Import ListNotations.

(** the objects of a program: configurations, free-standing sections, managers, results *)
Inductive object := OConf (i : nat) | OSec (i : nat) | OMan (i : nat) | ORes (i : nat).
Definition owner (p : place) : object := match p with PConfig i => OConf i | PResults i => ORes i end.
Definition section_owner (q : splace) : object := match q with SInside p _ => owner p | SOwn i => OSec i end.

Section Spec.
Context {V C K Op : Type}.
Notation state := (state V K).
Notation api := (api V C K Op).
Notation stmt := (stmt V C Op).

(** what an object contains *)
Inductive contents := CConf (c : pyconfig V) | CSec (z : section V) | CMan (m : manager V K) | CRes (r : resv V).
Definition contents_of (t : state) (o : object) : option contents :=
  match o with
  | OConf i => option_map CConf (nth_error (st_conf t) i)
  | OSec i => option_map CSec (nth_error (st_sec t) i)
  | OMan i => option_map CMan (nth_error (st_man t) i)
  | ORes i => option_map CRes (nth_error (st_res t) i)
  end.

(** the variable [x] holds [w] *)
Definition holds (t : state) (x : nat) (w : pyval V) : Prop := nth_error (st_var t) x = Some w.
(** the statement is an assignment to (part of) the object [o], or a call of a method or of run() on it *)
Inductive aims_at (t : state) : stmt -> object -> Prop :=
| aims_option x k y q : holds t x (VSection q) -> aims_at t (SSetOption x k y) (section_owner q)
| aims_section x s y p : holds t x (VConfiguration p) -> aims_at t (SSetSection x s y) (owner p)
| aims_field x k y j : holds t x (VResults j) -> aims_at t (SSetField x k y) (ORes j)
| aims_conf x y j : holds t x (VResults j) -> aims_at t (SSetConf x y) (ORes j)
| aims_method x o j : holds t x (VManager j) -> aims_at t (SMethod x o) (OMan j)
| aims_run x j : holds t x (VManager j) -> aims_at t (SRun x) (OMan j).
(** while the program runs, no statement aims at [o] *)
Fixpoint leaves_alone (a : api) (t : state) (l : list stmt) (o : object) : Prop :=
  match l with
  | [] => True
  | i :: r => ~ aims_at t i o /\ leaves_alone a (match step a t i with Some t' => t' | None => t end) r o
  end.

(** what is done to manager [j] in the course of a program: [inl o]: method [o] is called; [inr tt]: run() *)
Fixpoint calls_on (a : api) (t : state) (l : list stmt) (j : nat) : list (Op + unit) :=
  match l with
  | [] => []
  | i :: r =>
      (match i with
       | SMethod x o => match nth_error (st_var t) x with Some (VManager j') => if Nat.eqb j' j then [inl o] else [] | _ => [] end
       | SRun x => match nth_error (st_var t) x with Some (VManager j') => if Nat.eqb j' j then [inr tt] else [] | _ => [] end
       | _ => [] end)
      ++ calls_on a (match step a t i with Some t' => t' | None => t end) r j
  end.
(** a manager with nothing but these calls *)
Definition called (a : api) (m : manager V K) (x : Op + unit) : manager V K :=
  match x with
  | inl o => match method a o (mn_rest m) (mn_conf m) with Some (r, c) => mkMan r c (mn_res m) | None => m end
  | inr _ => let '(r, c, f) := run a (mn_rest m) (mn_conf m) (rs_field (mn_res m)) in mkMan r c (mkRes (mn_conf m) f)
  end.
(** the value an option has in a section that lives at [q] *)
Definition option_at (t : state) (q : splace) (k : string) : option V := option_map (fun z => sc_val z k) (section_at t q).
End Spec.
Arguments contents V K : clear implicits.

(** the options whose value is an enumeration: the application schemes and the kind of stimuli *)
Definition enumeration_option (s : sect) (k : string) : Prop :=
  In (s, k) [(Application, "construction_scheme"); (Application, "simulation_scheme"); (Application, "alternating_scheme"); (Simulation, "state_type")]%string.
