(** C83: which Python objects share state. A configuration, a free-standing section, a manager and a Results object each own what they contain:
    a statement changes only the object it is aimed at. Managers copy the configuration they get, get_configuration() and get_results() hand out
    copies, and references (x.execution, results.configuration) keep pointing into their owner. *)
From Coq Require Import String List Bool Arith.
From Verif Require Import PyConfig PyObjects PyObjectsSpec PyObjectsProofs.
Import ListNotations.
Local Open Scope string_scope.
Local Open Scope list_scope.
Local Open Scope nat_scope.

(** A statement leaves every object as it is that it does not assign to, or call a method of: in particular the configuration a manager was made
    from, the results taken from it earlier, and every other manager. *)
Theorem C83_only_the_target : forall (V C K Op : Type) (a : api V C K Op) t i t' o z,
  step a t i = Some t' -> ~ aims_at t i o -> contents_of t o = Some z -> contents_of t' o = Some z.
Proof. intros V C K Op a t i t' o z. exact (step_frame a t i t' o z). Qed.
Print Assumptions C83_only_the_target.

(** The same for programs: what no statement of the program aims at stays as it was. *)
Theorem C83_untouched : forall (V C K Op : Type) (a : api V C K Op) l t o z,
  contents_of t o = Some z -> leaves_alone a t l o -> contents_of (exec a t l) o = Some z.
Proof. intros V C K Op a l t o z. exact (exec_frame a l t o z). Qed.
Print Assumptions C83_untouched.

(** A variable keeps referring to the same thing. *)
Theorem C83_variables_stable : forall (V C K Op : Type) (a : api V C K Op) l t x w, holds t x w -> holds (exec a t l) x w.
Proof. intros V C K Op a l t x w. exact (exec_vars a l t x w). Qed.
Print Assumptions C83_variables_stable.

(** What becomes of a manager in the course of a program depends on nothing but the calls of its own methods, in their order: not on assignments to
    the configuration it was made from, nor to what get_configuration() and get_results() returned, nor on other managers. *)
Theorem C83_manager_history : forall (V C K Op : Type) (a : api V C K Op) l t j m,
  nth_error (st_man t) j = Some m ->
  nth_error (st_man (exec a t l)) j = Some (fold_left (called a) (calls_on a t l j) m).
Proof. intros V C K Op a l t j m. exact (exec_manager a l t j m). Qed.
Print Assumptions C83_manager_history.

(** Assigning to an option of a section: the section, wherever it lives and through whichever variable it is seen, has the converted value, and
    nothing else of any section changes. *)
Theorem C83_set_option : forall (V C K Op : Type) (a : api V C K Op) t x k y t' q,
  step a t (SSetOption x k y) = Some t' -> holds t x (VSection q) ->
  exists w v s v', holds t y w /\ value_of t w = Some v /\ option_map sc_sect (section_at t q) = Some s /\ hasattr s k = true /\
    convert a s k v = Some v' /\
    option_at t' q k = Some v' /\
    (forall q' k', q' <> q \/ k' <> k -> option_at t' q' k' = option_at t q' k').
Proof. intros V C K Op a t x k y t' q. exact (set_option_effect a t x k y t' q). Qed.
Print Assumptions C83_set_option.

(** Assigning a section copies its options: a reference taken earlier sees them, and the section assigned from stays separate. *)
Theorem C83_set_section : forall (V C K Op : Type) (a : api V C K Op) t x s y t' p,
  step a t (SSetSection x s y) = Some t' -> holds t x (VConfiguration p) ->
  exists q, holds t y (VSection q) /\
    (forall k, option_at t' (SInside p s) k = option_at t q k) /\
    (forall q' k, q' <> SInside p s -> option_at t' q' k = option_at t q' k).
Proof. intros V C K Op a t x s y t' p. exact (set_section_effect a t x s y t' p). Qed.
Print Assumptions C83_set_section.

(** Results objects can be written to: results.configuration = y copies y's options, and a field assigned to leaves the others. *)
Theorem C83_set_results_configuration : forall (V C K Op : Type) (a : api V C K Op) t x y t' j,
  step a t (SSetConf x y) = Some t' -> holds t x (VResults j) ->
  exists p c r, holds t y (VConfiguration p) /\ conf_at t p = Some c /\ contents_of t (ORes j) = Some (CRes r) /\
    contents_of t' (ORes j) = Some (CRes (mkRes c (rs_field r))).
Proof. intros V C K Op a t x y t' j. exact (set_conf_field_effect a t x y t' j). Qed.
Print Assumptions C83_set_results_configuration.
Theorem C83_set_results_field : forall (V C K Op : Type) (a : api V C K Op) t x k y t' j,
  step a t (SSetField x k y) = Some t' -> holds t x (VResults j) ->
  exists w v v' r r', holds t y w /\ value_of t w = Some v /\ convert_field a k v = Some v' /\
    contents_of t (ORes j) = Some (CRes r) /\ contents_of t' (ORes j) = Some (CRes r') /\
    rs_conf r' = rs_conf r /\ rs_field r' k = v' /\ (forall k', k' <> k -> rs_field r' k' = rs_field r k').
Proof. intros V C K Op a t x k y t' j. exact (set_field_effect a t x k y t' j). Qed.
Print Assumptions C83_set_results_field.

(** The manager is made from what the configuration holds at that time. *)
Theorem C83_new_manager : forall (V C K Op : Type) (a : api V C K Op) t c x t',
  step a t (SNewManager c x) = Some t' ->
  exists p cf m i, holds t x (VConfiguration p) /\ conf_at t p = Some cf /\ construct a c cf = Some m /\
    contents_of t (OMan i) = None /\ contents_of t' (OMan i) = Some (CMan m) /\
    st_var t' = st_var t ++ [VManager i].
Proof. intros V C K Op a t c x t'. exact (new_manager_effect a t c x t'). Qed.
Print Assumptions C83_new_manager.

(** get_configuration() gives a new object, equal to the manager's configuration at that time ... *)
Theorem C83_get_configuration : forall (V C K Op : Type) (a : api V C K Op) t x t',
  step a t (SGetConfiguration x) = Some t' ->
  exists j m i, holds t x (VManager j) /\ contents_of t (OMan j) = Some (CMan m) /\
    contents_of t (OConf i) = None /\ contents_of t' (OConf i) = Some (CConf (mn_conf m)) /\
    st_var t' = st_var t ++ [VConfiguration (PConfig i)].
Proof. intros V C K Op a t x t'. exact (get_configuration_effect a t x t'). Qed.
Print Assumptions C83_get_configuration.
(** ... and get_results() a new one equal to its results. *)
Theorem C83_get_results : forall (V C K Op : Type) (a : api V C K Op) t x t',
  step a t (SGetResults x) = Some t' ->
  exists j m i, holds t x (VManager j) /\ contents_of t (OMan j) = Some (CMan m) /\
    contents_of t (ORes i) = None /\ contents_of t' (ORes i) = Some (CRes (mn_res m)) /\
    st_var t' = st_var t ++ [VResults i].
Proof. intros V C K Op a t x t'. exact (get_results_effect a t x t'). Qed.
Print Assumptions C83_get_results.

(** run() puts the configuration the manager had when it was called into the results. *)
Theorem C83_run_records_configuration : forall (V C K Op : Type) (a : api V C K Op) t x t',
  step a t (SRun x) = Some t' ->
  exists j m m', holds t x (VManager j) /\ contents_of t (OMan j) = Some (CMan m) /\ contents_of t' (OMan j) = Some (CMan m') /\
    rs_conf (mn_res m') = mn_conf m.
Proof.
  intros V C K Op a t x t' H. destruct (run_effect a t x t' H) as (j & m & r & c & f & A & B & _ & D).
  exists j, m, (mkMan r c (mkRes (mn_conf m) f)). auto.
Qed.
Print Assumptions C83_run_records_configuration.

(** An option saved in a variable keeps its value whatever the program goes on to do, if it is a number, a truth value or a string ... *)
Theorem C83_saved_plain_option : forall (V C K Op : Type) (a : api V C K Op) t x k t' l s q v,
  step a t (SGetOption x k) = Some t' -> holds t x (VSection q) ->
  option_map sc_sect (section_at t q) = Some s -> ~ enumeration_option s k -> option_at t q k = Some v ->
  exists w, holds (exec a t' l) (length (st_var t)) w /\ value_of (exec a t' l) w = Some v.
Proof.
  intros V C K Op a t x k t' l s q v A B C0 D. apply (saved_plain a t x k t' l s q v A B C0). rewrite <- enum_iff in D. now destruct (is_enum s k).
Qed.
Print Assumptions C83_saved_plain_option.
(** ... while a saved application scheme or state type is, at any later time, whatever the section holds then. *)
Theorem C83_saved_scheme_is_live : forall (V C K Op : Type) (a : api V C K Op) t x k t' l s q,
  step a t (SGetOption x k) = Some t' -> holds t x (VSection q) ->
  option_map sc_sect (section_at t q) = Some s -> enumeration_option s k ->
  exists w, holds (exec a t' l) (length (st_var t)) w /\ value_of (exec a t' l) w = option_at (exec a t' l) q k.
Proof. intros V C K Op a t x k t' l s q. intros A B C0 D. apply (saved_enum a t x k t' l s q A B C0), enum_iff, D. Qed.
Print Assumptions C83_saved_scheme_is_live.

(** a small interface for the examples: values are numbers; the constructor sets the option "nthreads" to 7 in the manager's configuration only, run()
    adds one to every field of the results and sets "seed" to 1 *)
Definition demo_api : api nat nat nat nat :=
  mkApi (fun _ _ => 0) (fun _ _ v => Some v) (fun _ v => Some v)
    (fun c cf => if Nat.eqb c 9 then None else
       Some (mkMan c (fun s k => if String.eqb k "nthreads" then 7 else cf s k) (mkRes (fun _ _ => 0) (fun _ => 0))))
    (fun o k c => if Nat.eqb o 9 then None else Some (k, fun s k' => if String.eqb k' "timeout" then o else c s k'))
    (fun k c f => (S k, (fun s k' => if String.eqb k' "seed" then 1 else c s k'), (fun k' => S (f k')))).
(** before saving: 0 a Configuration, 1 its application section, 2 the value 1 *)
Definition before : list (stmt nat nat nat) := [SNewConfiguration; SGetSection 0 Application; SValue 1].
(** Claim, refuted: an option that was saved can be put back. It is saved (variable 3), set to another value, and assigned again from variable 3. *)
Definition restores (a : api nat nat nat nat) (k : string) : Prop :=
  option_at (exec a start (before ++ [SGetOption 1 k; SSetOption 1 k 2; SSetOption 1 k 3])) (SInside (PConfig 0) Application) k
  = option_at (exec a start before) (SInside (PConfig 0) Application) k.
Theorem C83_saved_option_can_be_put_back_refuted : exists a k, hasattr Application k = true /\
  (forall s v, convert a s k v = Some v) /\ ~ restores a k.
Proof. exists demo_api, "alternating_scheme". split; [reflexivity|]. split; [reflexivity|]. unfold restores. vm_compute. discriminate. Qed.
Print Assumptions C83_saved_option_can_be_put_back_refuted.
(** the four options of which this is true, and a few of which it is not *)
Example C83_example_live :
  map (fun x => is_enum (fst x) (snd x))
    [(Application, "construction_scheme"); (Application, "simulation_scheme"); (Application, "alternating_scheme"); (Simulation, "state_type");
     (Application, "profile"); (Simulation, "seed"); (Execution, "timeout"); (Functionality, "trace_threshold")]
  = [true; true; true; true; false; false; false; false].
Proof. reflexivity. Qed.
(** the same with the option "profile", a string: it is put back *)
Example C83_example_put_back : hasattr Application "profile" = true /\ restores demo_api "profile".
Proof. split; vm_compute; reflexivity. Qed.

(** non-vacuity: 0 a configuration, 1 its execution section, 2 the value 5; "timeout" set to 5; 3 the manager made from it; 4 = m.get_configuration(),
    5 its execution section; m.run(); 6 = m.get_results(), 7 its configuration, 8 the execution section of that; "timeout" set to 4 by the manager's
    method; run() again; the first configuration's timeout is set to 6 (9), and so is that of the copy *)
Definition program : list (stmt nat nat nat) :=
  [SNewConfiguration; SGetSection 0 Execution; SValue 5; SSetOption 1 "timeout" 2; SNewManager 3 0; SGetConfiguration 3; SGetSection 4 Execution;
   SRun 3; SGetResults 3; SGetConf 6; SGetSection 7 Execution; SMethod 3 4; SRun 3; SValue 6; SSetOption 1 "timeout" 9; SSetOption 5 "timeout" 9;
   SMethod 3 9; SNewManager 9 0].
Definition timeout_of (c : option (pyconfig nat)) : option nat := option_map (fun c => c Execution "timeout") c.
Example C83_example_program :
  let t := exec demo_api start program in
  timeout_of (conf_at t (PConfig 0)) = Some 6 /\ timeout_of (conf_at t (PConfig 1)) = Some 6 /\ timeout_of (conf_at t (PResults 0)) = Some 5 /\
  option_map (fun m => (mn_conf m Execution "timeout", mn_rest m, rs_conf (mn_res m) Execution "timeout", rs_field (mn_res m) "check_time")) (nth_error (st_man t) 0)
    = Some (4, 5, 4, 2) /\
  calls_on demo_api start program 0 = [inr tt; inl 4; inr tt; inl 9] /\
  length (st_man t) = 1 /\ length (st_var t) = 10 /\ option_at t (SInside (PConfig 0) Execution) "timeout" = Some 6.
Proof. vm_compute. repeat split. Qed.
(** the Results object taken after the first run is left alone by the rest of the program *)
Example C83_example_left_alone :
  let t := exec demo_api start (firstn 9 program) in
  (exists z, contents_of t (ORes 0) = Some z) /\ leaves_alone demo_api t (skipn 9 program) (ORes 0).
Proof.
  cbn zeta. split; [eexists; vm_compute; reflexivity|].
  cbn [program skipn leaves_alone].
  repeat match goal with |- _ /\ _ => split end; try exact I; intros H; inversion H; subst;
    match goal with
    | E : holds _ _ _, E2 : section_owner _ = _ |- _ => vm_compute in E; injection E as E; subst; discriminate E2
    | _ => idtac
    end.
Qed.
