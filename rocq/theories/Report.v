(** Model of the JSON report of the results: EquivalenceCheckingManager::Results::json, the json() member
    functions of the checkers, and the part of run()/reset() that fills the reported fields.  No proofs.
    Simplifications: runtimes, node counts and check times are arbitrary numbers supplied from outside; doubles
    are rationals (nlohmann::json writes NaN and infinities as null); an object is the list of its
    fields (nlohmann sorts them by key, only look-up by key matters). *)
From Coq Require Import String List Bool NArith QArith.
From Verif Require Import Criterion Config SeqFlow.
Import ListNotations.
Local Open Scope string_scope.
Local Open Scope list_scope.

(** JSON documents, with arrays *)
Inductive doc : Type :=
| DNull | DBool (b : bool) | DNum (n : N) | DReal (q : Q) | DStr (s : string)
| DArr (l : list doc) | DObj (l : list (string * doc)).

(** the configuration's document (Config.v) as part of a report *)
Fixpoint of_json (j : json) : doc :=
  match j with
  | JBool b => DBool b | JNum n => DNum n | JReal q => DReal q | JStr s => DStr s | JNull => DNull
  | JObj l => DObj (map (fun p => (fst p, of_json (snd p))) l)
  end.

(** amplitudes, dd::CVec *)
Definition cvec := list (Q * Q).
(** EquivalenceCheckingManager.hpp:84-89 *)
Definition vec_json (v : cvec) : doc := DArr (map (fun a => DArr [DReal (fst a); DReal (snd a)]) v).

(** names, numbers of qubits and gates of a circuit: what run() copies, cpp:296-305 (the numbers of measured
    qubits and ancillae are copied as well but not part of the report) *)
Record circuit_info := mkInfo { ci_name : string; ci_qubits : N; ci_gates : N }.

(** EquivalenceCheckingManager.hpp:38-68 *)
Record full_results := mkFull {
  f_c1 : circuit_info; f_c2 : circuit_info; f_cfg : config; f_pre : Q; f_check : Q; f_eq : criterion;
  f_started : N; f_performed : N; f_in : cvec; f_out1 : cvec; f_out2 : cvec; f_inst : N; f_chk : list doc }.

Definition circuit_json (c : circuit_info) : doc :=
  DObj [("name", DStr (ci_name c)); ("num_qubits", DNum (ci_qubits c)); ("num_gates", DNum (ci_gates c))].
Definition nonempty (v : cvec) : bool := match v with [] => false | _ => true end.

(** EquivalenceCheckingManager.cpp:957-974 *)
Definition cex_json (r : full_results) : list (string * doc) :=
  if nonempty (f_in r) || nonempty (f_out1 r) || nonempty (f_out2 r) then
    [("verification_cex", DObj
       ((if nonempty (f_in r) then [("input", vec_json (f_in r))] else []) ++
        (if nonempty (f_out1 r) then [("output1", vec_json (f_out1 r))] else []) ++
        (if nonempty (f_out2 r) then [("output2", vec_json (f_out2 r))] else [])))]
  else [].
Definition sims_json (r : full_results) : list (string * doc) :=
  if N.ltb 0 (f_started r) then
    [("simulations", DObj ([("started", DNum (f_started r)); ("performed", DNum (f_performed r))] ++ cex_json r))]
  else [].
(** EquivalenceCheckingManager.cpp:937-981 *)
Definition report_json (r : full_results) : doc :=
  DObj ([("circuit1", circuit_json (f_c1 r)); ("circuit2", circuit_json (f_c2 r));
         ("configuration", of_json (config_json (f_cfg r)));
         ("preprocessing_time", DReal (f_pre r)); ("check_time", DReal (f_check r));
         ("equivalence", DStr (criterion_toString (f_eq r)))] ++
        sims_json r ++
        [("parameterized", DObj [("performed_instantiations", DNum (f_inst r))]);
         ("checkers", DArr (f_chk r))]).

(** names of the checkers: DDAlternatingChecker.cpp:167, DDConstructionChecker.cpp:17, DDSimulationChecker.cpp:55,
    ZXChecker.hpp:31 *)
Definition kind_name (k : kind) : string :=
  match k with
  | KSim => "decision_diagram_simulation" | KAlt => "decision_diagram_alternating"
  | KCon => "decision_diagram_construction" | KZX => "zx" end.

Section Run.
Context {Stim Gen : Type}.
Notation env := (env Stim Gen).
Notation mgr := (mgr Stim Gen).

(** EquivalenceChecker.cpp:15-18, DDEquivalenceChecker.cpp:272-276; [mn]: maximal number of nodes, [rt]: runtime *)
Definition checker_json (mn : checker Stim -> N) (rt : checker Stim -> Q) (k : checker Stim) : doc :=
  DObj ([("equivalence", DStr (criterion_toString (k_eq k))); ("runtime", DReal (rt k))] ++
        (match k_kind k with KZX => [] | _ => [("max_nodes", DNum (mn k))] end) ++
        [("checker", DStr (kind_name (k_kind k)))]).

(** the manager of SeqFlow.v with the reported fields that the flows do not use *)
Record rmgr := mkR {
  rm_mgr : mgr; rm_c1 : circuit_info; rm_c2 : circuit_info; rm_cfg : config; rm_check : Q; rm_chk : list doc }.

Definition no_info : circuit_info := mkInfo "" 0 0.
(** after construction: the results' fields have their default values, hpp:38-68 ([dc]: a default-constructed
    configuration) *)
Definition rfresh (dc : config) (m : mgr) : rmgr := mkR m no_info no_info dc 0 [].
(** hpp:104-108 *)
Definition rreset (dc : config) (e : env) (m : rmgr) : rmgr := rfresh dc (reset e (rm_mgr m)).

(** what the outside world contributes to one run: the circuits' data and the measurements *)
Record world := mkWorld {
  w_c1 : circuit_info; w_c2 : circuit_info; w_nodes : checker Stim -> N; w_time : checker Stim -> Q; w_check : Q }.

(** cpp:293-352: the fields copied at the beginning, the flow (SeqFlow.run), and the collection of the
    checkers' documents at the end, which the two early returns (314-324) skip *)
Definition rrun (fuel : nat) (pf : env -> mgr -> outcome mgr) (e : env) (w : world) (m : rmgr) : outcome rmgr :=
  let c := m_cfg (rm_mgr m) in
  match run fuel pf e (rm_mgr m) with
  | Returned m' =>
      match choose_flow e c with
      | FNothing | FTrivial => Returned (mkR m' (w_c1 w) (w_c2 w) c (rm_check m) (rm_chk m))
      | _ => Returned (mkR m' (w_c1 w) (w_c2 w) c (w_check w)
                 (rm_chk m ++ map (checker_json (w_nodes w) (w_time w)) (m_checkers m')))
      end
  | Thrown => Thrown | Terminated => Terminated | Diverged => Diverged | AssertFailed => AssertFailed
  end.

(** getResults(), hpp:113; [vi], [vo1], [vo2]: the state vectors belonging to a stimulus.  The number of
    instantiations is only ever set by the Python layer (parameterized.py). *)
Definition get_results (vi vo1 vo2 : Stim -> cvec) (m : rmgr) : full_results :=
  let r := m_res (rm_mgr m) in
  let v f o := match o with Some s => f s | None => [] end in
  mkFull (rm_c1 m) (rm_c2 m) (rm_cfg m) (r_preproc r) (rm_check m) (r_eq r) (r_started r) (r_performed r)
    (v vi (r_cexIn r)) (v vo1 (r_cexOut r)) (v vo2 (r_cexOut r)) 0 (rm_chk m).
End Run.
Arguments rmgr : clear implicits.
Arguments world : clear implicits.
