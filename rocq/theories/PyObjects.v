(** Model of the Python objects of the package and of what they share: Configuration, its sections, EquivalenceCheckingManager and Results
    (src/python/bindings.cpp:183-756; include/EquivalenceCheckingManager.hpp:38-114). No proofs in this file.

    Every object owns its C++ value. pybind11 (recalled, not in /repo): an attribute bound with def_readwrite whose type is a bound class or
    enumeration is read as a reference into its owner, of any other type as a copy; assigning copies the value; a function that returns by value
    (getConfiguration, getResults) makes a new object; arguments taken by value are copied.

    Inputs, that is arbitrary: conversions, the manager's constructor, its methods and run(). A statement that raises leaves everything as it is
    (for run() that raises, [run] describes what it has done by then). *)
From Coq Require Import String List Bool Arith.
From Verif Require Import PyConfig.
Import ListNotations.
Local Open Scope string_scope.
Local Open Scope list_scope.

(** where a Configuration lives: an object of its own, or inside a Results object *)
Inductive place := PConfig (i : nat) | PResults (i : nat).
(** where a section lives: inside a configuration, or an object of its own, e.g. Configuration.Execution() *)
Inductive splace := SInside (p : place) (s : sect) | SOwn (i : nat).

(** the attributes whose type is an enumeration, bindings.cpp:607-627, 711-715 *)
Definition is_enum (s : sect) (k : string) : bool :=
  match s with
  | Application => existsb (String.eqb k) ["construction_scheme"; "simulation_scheme"; "alternating_scheme"]
  | Simulation => String.eqb k "state_type"
  | _ => false
  end.

Section Objects.
Context {V C K Op : Type}.  (* Python values, pairs of circuits, the rest of a manager, its methods with their arguments *)

(** what a variable of the user's program holds *)
Inductive pyval :=
| VPlain (v : V)                       (* a value of its own *)
| VConfiguration (p : place) | VSection (q : splace) | VManager (i : nat) | VResults (i : nat)
| VOption (q : splace) (k : string)    (* reference to an enumeration inside a section *)
| VField (i : nat) (k : string).       (* reference to an enumeration inside a Results object *)

(** EquivalenceCheckingManager.hpp:38-68: the field 'configuration' and the other fields *)
Record resv := mkRes { rs_conf : pyconfig V; rs_field : string -> V }.
Record manager := mkMan { mn_rest : K; mn_conf : pyconfig V; mn_res : resv }.
Record section := mkSec { sc_sect : sect; sc_val : string -> V }.
Record state := mkState { st_conf : list (pyconfig V); st_sec : list section; st_man : list manager; st_res : list resv; st_var : list pyval }.

Record api := mkApi {
  default : pyconfig V;                                  (* Configuration() *)
  convert : sect -> string -> V -> option V;             (* as in PyConfig.v *)
  convert_field : string -> V -> option V;               (* the same for the fields of Results *)
  construct : C -> pyconfig V -> option manager;         (* bindings.cpp:50-71; None: raises *)
  method : Op -> K -> pyconfig V -> option (K * pyconfig V);          (* bindings.cpp:199-366; None: raises *)
  run : K -> pyconfig V -> (string -> V) -> K * pyconfig V * (string -> V) }.  (* run(): also gets the earlier results, which it does not clear *)
Variable a : api.

(** statements of the user's program; variables are numbered in the order in which they are bound *)
Inductive stmt :=
| SValue (v : V)                   (* x = v *)
| SNewConfiguration                (* x = Configuration() *)
| SNewSection (s : sect)           (* x = Configuration.Execution() etc. *)
| SGetSection (x : nat) (s : sect) (* y = x.execution etc. *)
| SGetOption (x : nat) (k : string)(* y = x.k *)
| SGetField (x : nat) (k : string) (* y = x.k, x a Results object *)
| SGetConf (x : nat)               (* y = x.configuration, x a Results object *)
| SNewManager (c : C) (x : nat)    (* y = EquivalenceCheckingManager(c1, c2, x) *)
| SGetConfiguration (x : nat)      (* y = x.get_configuration() *)
| SGetResults (x : nat)            (* y = x.get_results() *)
| SSetOption (x : nat) (k : string) (y : nat) (* x.k = y, x a section *)
| SSetSection (x : nat) (s : sect) (y : nat)  (* x.execution = y etc. *)
| SSetField (x : nat) (k : string) (y : nat)  (* x.k = y, x a Results object *)
| SSetConf (x y : nat)                        (* x.configuration = y *)
| SMethod (x : nat) (o : Op)                  (* x.set_...(...), x.disable_all_checkers() etc. *)
| SRun (x : nat).                             (* x.run() *)

Fixpoint put {A} (l : list A) (i : nat) (y : A) : list A :=
  match l, i with [], _ => [] | _ :: t, O => y :: t | h :: t, S j => h :: put t j y end.
Definition bindv (w : pyval) (t : state) : state := mkState (st_conf t) (st_sec t) (st_man t) (st_res t) (st_var t ++ [w]).

(** reading *)
Definition conf_at (t : state) (p : place) : option (pyconfig V) :=
  match p with PConfig i => nth_error (st_conf t) i | PResults i => option_map rs_conf (nth_error (st_res t) i) end.
Definition section_at (t : state) (q : splace) : option section :=
  match q with
  | SInside p s => option_map (fun c => mkSec s (c s)) (conf_at t p)
  | SOwn i => nth_error (st_sec t) i
  end.
(** the value of what a variable holds, where it is one *)
Definition value_of (t : state) (w : pyval) : option V :=
  match w with
  | VPlain v => Some v
  | VOption q k => option_map (fun z => sc_val z k) (section_at t q)
  | VField i k => option_map (fun r => rs_field r k) (nth_error (st_res t) i)
  | _ => None
  end.

(** writing *)
Definition set_conf (t : state) (p : place) (c : pyconfig V) : option state :=
  match p with
  | PConfig i => if Nat.ltb i (List.length (st_conf t)) then Some (mkState (put (st_conf t) i c) (st_sec t) (st_man t) (st_res t) (st_var t)) else None
  | PResults i => match nth_error (st_res t) i with
                  | Some r => Some (mkState (st_conf t) (st_sec t) (st_man t) (put (st_res t) i (mkRes c (rs_field r))) (st_var t))
                  | None => None end
  end.
Definition with_section (c : pyconfig V) (s : sect) (f : string -> V) : pyconfig V := fun s' k => if sect_eqb s' s then f k else c s' k.
Definition set_section (t : state) (q : splace) (f : string -> V) : option state :=
  match q with
  | SInside p s => match conf_at t p with Some c => set_conf t p (with_section c s f) | None => None end
  | SOwn i => match nth_error (st_sec t) i with
              | Some z => Some (mkState (st_conf t) (put (st_sec t) i (mkSec (sc_sect z) f)) (st_man t) (st_res t) (st_var t))
              | None => None end
  end.
Definition set_manager (t : state) (i : nat) (m : manager) : state := mkState (st_conf t) (st_sec t) (put (st_man t) i m) (st_res t) (st_var t).

(** one statement; None: it raises *)
Definition step (t : state) (i : stmt) : option state :=
  match i with
  | SValue v => Some (bindv (VPlain v) t)
  | SNewConfiguration =>
      Some (bindv (VConfiguration (PConfig (List.length (st_conf t)))) (mkState (st_conf t ++ [default a]) (st_sec t) (st_man t) (st_res t) (st_var t)))
  | SNewSection s =>
      Some (bindv (VSection (SOwn (List.length (st_sec t)))) (mkState (st_conf t) (st_sec t ++ [mkSec s (default a s)]) (st_man t) (st_res t) (st_var t)))
  | SGetSection x s =>
      match nth_error (st_var t) x with Some (VConfiguration p) => Some (bindv (VSection (SInside p s)) t) | _ => None end
  | SGetOption x k =>
      match nth_error (st_var t) x with
      | Some (VSection q) =>
          match section_at t q with
          | Some z => if hasattr (sc_sect z) k
                      then Some (bindv (if is_enum (sc_sect z) k then VOption q k else VPlain (sc_val z k)) t) else None
          | None => None end
      | _ => None end
  | SGetField x k =>
      match nth_error (st_var t) x with
      | Some (VResults j) =>
          match nth_error (st_res t) j with
          | Some r => Some (bindv (if String.eqb k "equivalence" then VField j k else VPlain (rs_field r k)) t)
          | None => None end
      | _ => None end
  | SGetConf x => match nth_error (st_var t) x with Some (VResults j) => Some (bindv (VConfiguration (PResults j)) t) | _ => None end
  | SNewManager c x =>
      match nth_error (st_var t) x with
      | Some (VConfiguration p) =>
          match conf_at t p with
          | Some cf => match construct a c cf with
                       | Some m => Some (bindv (VManager (List.length (st_man t))) (mkState (st_conf t) (st_sec t) (st_man t ++ [m]) (st_res t) (st_var t)))
                       | None => None end
          | None => None end
      | _ => None end
  | SGetConfiguration x =>
      match nth_error (st_var t) x with
      | Some (VManager j) =>
          match nth_error (st_man t) j with
          | Some m => Some (bindv (VConfiguration (PConfig (List.length (st_conf t)))) (mkState (st_conf t ++ [mn_conf m]) (st_sec t) (st_man t) (st_res t) (st_var t)))
          | None => None end
      | _ => None end
  | SGetResults x =>
      match nth_error (st_var t) x with
      | Some (VManager j) =>
          match nth_error (st_man t) j with
          | Some m => Some (bindv (VResults (List.length (st_res t))) (mkState (st_conf t) (st_sec t) (st_man t) (st_res t ++ [mn_res m]) (st_var t)))
          | None => None end
      | _ => None end
  | SSetOption x k y =>
      match nth_error (st_var t) x, nth_error (st_var t) y with
      | Some (VSection q), Some w =>
          match section_at t q, value_of t w with
          | Some z, Some v =>
              if hasattr (sc_sect z) k
              then match convert a (sc_sect z) k v with
                   | Some v' => set_section t q (fun k' => if String.eqb k' k then v' else sc_val z k')
                   | None => None end
              else None
          | _, _ => None end
      | _, _ => None end
  | SSetSection x s y =>
      match nth_error (st_var t) x, nth_error (st_var t) y with
      | Some (VConfiguration p), Some (VSection q) =>
          match section_at t q with
          | Some z => if sect_eqb (sc_sect z) s then set_section t (SInside p s) (sc_val z) else None
          | None => None end
      | _, _ => None end
  | SSetField x k y =>
      match nth_error (st_var t) x, nth_error (st_var t) y with
      | Some (VResults j), Some w =>
          match nth_error (st_res t) j, value_of t w with
          | Some r, Some v =>
              match convert_field a k v with
              | Some v' => Some (mkState (st_conf t) (st_sec t) (st_man t)
                                   (put (st_res t) j (mkRes (rs_conf r) (fun k' => if String.eqb k' k then v' else rs_field r k'))) (st_var t))
              | None => None end
          | _, _ => None end
      | _, _ => None end
  | SSetConf x y =>
      match nth_error (st_var t) x, nth_error (st_var t) y with
      | Some (VResults j), Some (VConfiguration p) => match conf_at t p with Some c => set_conf t (PResults j) c | None => None end
      | _, _ => None end
  | SMethod x o =>
      match nth_error (st_var t) x with
      | Some (VManager j) =>
          match nth_error (st_man t) j with
          | Some m => match method a o (mn_rest m) (mn_conf m) with
                      | Some (r, c) => Some (set_manager t j (mkMan r c (mn_res m)))
                      | None => None end
          | None => None end
      | _ => None end
  | SRun x =>
      match nth_error (st_var t) x with
      | Some (VManager j) =>
          match nth_error (st_man t) j with
          | Some m => let '(r, c, f) := run a (mn_rest m) (mn_conf m) (rs_field (mn_res m)) in
                      (* EquivalenceCheckingManager.cpp:307: the configuration as it is when run() is called *)
                      Some (set_manager t j (mkMan r c (mkRes (mn_conf m) f)))
          | None => None end
      | _ => None end
  end.
(** a program; what raises is caught *)
Fixpoint exec (t : state) (l : list stmt) : state :=
  match l with
  | [] => t
  | i :: r => exec (match step t i with Some t' => t' | None => t end) r
  end.
Definition start : state := mkState [] [] [] [] [].
End Objects.
Arguments pyval V : clear implicits. Arguments resv V : clear implicits. Arguments manager V K : clear implicits.
Arguments section V : clear implicits. Arguments state V K : clear implicits. Arguments api V C K Op : clear implicits.
Arguments stmt V C Op : clear implicits.
