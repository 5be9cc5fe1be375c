(** Vocabulary for the JSON report (C61): reading a report, and the histories of a manager.  No proofs. *)
From Coq Require Import String List Bool NArith QArith.
From Verif Require Import Criterion Config SeqFlow SeqSpec ParFlow ParSpec Report.
Import ListNotations.
Local Open Scope string_scope.
Local Open Scope list_scope.

(** ** reading JSON *)
Fixpoint look (k : string) (l : list (string * doc)) : option doc :=
  match l with [] => None | (k', v) :: r => if (k =? k')%string then Some v else look k r end.
Definition field (k : string) (d : doc) : option doc := match d with DObj l => look k l | _ => None end.
(** following a path of keys *)
Fixpoint path (ks : list string) (d : doc) : option doc :=
  match ks with [] => Some d | k :: r => match field k d with Some d' => path r d' | None => None end end.
Definition num (o : option doc) : option N := match o with Some (DNum n) => Some n | _ => None end.
Definition real (o : option doc) : option Q := match o with Some (DReal q) => Some q | _ => None end.
Definition str (o : option doc) : option string := match o with Some (DStr s) => Some s | _ => None end.
Definition arr (o : option doc) : option (list doc) := match o with Some (DArr l) => Some l | _ => None end.
(** an amplitude is an array of real and imaginary part *)
Definition amplitude (d : doc) : option (Q * Q) :=
  match d with DArr [DReal a; DReal b] => Some (a, b) | _ => None end.
Fixpoint amplitudes (l : list doc) : option cvec :=
  match l with
  | [] => Some []
  | d :: r => match amplitude d, amplitudes r with Some a, Some v => Some (a :: v) | _, _ => None end
  end.
(** a vector; no entry means that none is stored *)
Definition vector (o : option doc) : option cvec :=
  match o with None => Some [] | Some (DArr l) => amplitudes l | Some _ => None end.
(** a number; no entry means zero *)
Definition num0 (o : option doc) : option N := match o with None => Some 0%N | _ => num o end.

(** a document without arrays, as Config.v's documents are *)
Fixpoint as_json (d : doc) : option json :=
  match d with
  | DNull => Some JNull | DBool b => Some (JBool b) | DNum n => Some (JNum n) | DReal q => Some (JReal q) | DStr s => Some (JStr s)
  | DArr _ => None
  | DObj l => option_map JObj ((fix go (l : list (string * doc)) : option (list (string * json)) :=
      match l with
      | [] => Some []
      | (k, v) :: r => match as_json v, go r with Some j, Some js => Some ((k, j) :: js) | _, _ => None end
      end) l)
  end.

(** ** what a reader of the report learns *)
Record view := mkView {
  v_c1 : circuit_info; v_c2 : circuit_info; v_pre : Q; v_check : Q; v_eq : criterion;
  v_started : N; v_performed : N; v_in : cvec; v_out1 : cvec; v_out2 : cvec; v_inst : N; v_chk : list doc }.

Definition read_circuit (k : string) (d : doc) : option circuit_info :=
  match str (path [k; "name"] d), num (path [k; "num_qubits"] d), num (path [k; "num_gates"] d) with
  | Some n, Some q, Some g => Some (mkInfo n q g) | _, _, _ => None end.
Definition read_report (d : doc) : option view :=
  match read_circuit "circuit1" d, read_circuit "circuit2" d, real (field "preprocessing_time" d),
        real (field "check_time" d), str (field "equivalence" d), arr (field "checkers" d) with
  | Some c1, Some c2, Some p, Some t, Some q, Some ch =>
      match num0 (path ["simulations"; "started"] d), num0 (path ["simulations"; "performed"] d),
            vector (path ["simulations"; "verification_cex"; "input"] d),
            vector (path ["simulations"; "verification_cex"; "output1"] d),
            vector (path ["simulations"; "verification_cex"; "output2"] d),
            num (path ["parameterized"; "performed_instantiations"] d) with
      | Some s, Some f, Some vi, Some v1, Some v2, Some i =>
          Some (mkView c1 c2 p t (criterion_fromString q) s f vi v1 v2 i ch)
      | _, _, _, _, _, _ => None end
  | _, _, _, _, _, _ => None end.
(** a checker's entry: its name and its verdict *)
Definition read_checker (d : doc) : option (string * criterion) :=
  match str (field "checker" d), str (field "equivalence" d) with
  | Some n, Some q => Some (n, criterion_fromString q) | _, _ => None end.
(** ... its runtime and its maximal number of nodes (if it has one) *)
Definition read_time (d : doc) : option Q := real (field "runtime" d).
Definition read_nodes (d : doc) : option N := num (field "max_nodes" d).
(** all but the ZX checker work on decision diagrams *)
Definition on_diagrams (k : kind) : bool := match k with KZX => false | _ => true end.
(** a stored state vector *)
Definition stored {Stim : Type} (f : Stim -> cvec) (o : option Stim) : cvec := match o with Some t => f t | None => [] end.

(** ** histories: construction, run, reset, changes of the configuration *)
Section History.
Context {Stim Gen : Type}.
Notation rmgr := (rmgr Stim Gen).
Notation env := (env Stim Gen).
Notation mgr := (mgr Stim Gen).

(** a run that takes the parallel flow is covered on a manager without earlier results; its result is that
    of some schedule of the parallel flow *)
Definition parallel_ok (e : env) (pf : env -> mgr -> outcome mgr) (m : mgr) : Prop :=
  choose_flow e (m_cfg m) = FParallel ->
  (exists pp, m_res m = mkResults NoInformation 0 0 None None pp) /\
  sane_sims (m_cfg m) /\ enough_threads e (m_cfg m) /\
  forall m', pf e (start_run m) = Returned m' ->
    exists s pp, par_returned e (m_cfg m) (m_gen m) pp s /\ m_res m' = p_res s.

Inductive history : rmgr -> Prop :=
| h_new dc c g pp : history (rfresh dc (fresh c g pp))
| h_run fuel pf e w m m' : history m -> parallel_ok e pf (rm_mgr m) ->
    rrun fuel pf e w m = Returned m' -> history m'
| h_reset dc e m : history m -> history (rreset dc e m)
| h_config c m : history m ->
    history (mkR (mkMgr c (m_gen (rm_mgr m)) (m_done (rm_mgr m)) (m_checkers (rm_mgr m)) (m_res (rm_mgr m)))
               (rm_c1 m) (rm_c2 m) (rm_cfg m) (rm_check m) (rm_chk m)).
End History.
