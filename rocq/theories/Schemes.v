(** Model of the application schemes, the built-in cost function and the gate-cost profile reader/writer.
    No proofs in this file.

    Sources: include/checker/dd/applicationscheme/{Sequential,OneToOne,Proportional,GateCost}ApplicationScheme.hpp,
    src/checker/dd/applicationscheme/GateCostApplicationScheme.cpp,
    src/mqt/qcec/compilation_flow_profiles.py:write_profile_data_to_file.
    Simplifications: std::size_t is N with arithmetic modulo 2^64 where the code computes; the unordered_map is an
    association list (only find/emplace are used, so the order of entries is unobservable). *)
From Coq Require Import String Ascii List Bool NArith Decimal DecimalString.
Import ListNotations.
Local Open Scope N_scope.

Definition w64 (n : N) : N := n mod (2 ^ 64).

(** qc::OpType, the values named in GateCostApplicationScheme.cpp:18-100; [OtherType] stands for all others *)
Inductive optype :=
| TI | TH | TX | TY | TZ | TS | TSdg | TT | TTdg | TP | TU2 | TU | TSX | TSXdg | TV | TVdg | TRX | TRY | TRZ
| TCompound | TMeasure | TReset | TBarrier | TClassicControlled | TSWAP | TiSWAP | TPeres | TPeresdg | TOther (n : N).

(** GateCostApplicationScheme.cpp:17-46: the cases answered directly when there are no controls *)
Definition plain_one (g : optype) : bool :=
  match g with
  | TSWAP | TiSWAP | TPeres | TPeresdg | TOther _ => false
  | _ => true
  end.

(** GateCostApplicationScheme.cpp:13-102: the body, with the recursive calls abstracted as [rec] *)
Definition lin2 (a : N) (x : option N) (b : N) (y : option N) : option N :=
  match x, y with Some x, Some y => Some (w64 (w64 (a * x) + w64 (b * y))) | _, _ => None end.
Definition cost_body (rec : optype -> N -> option N) (g : optype) (nc : N) : option N :=
  if (nc =? 0) && plain_one g then Some 1 else
  if match g with TX => nc =? 1 | _ => false end then Some 1 else
  match g with
  | TX =>
      match rec TP 0, rec TU2 0, rec TX 1, rec TU 0 with
      | Some p, Some u2, Some cx, Some u =>
          Some (w64 (w64 (w64 (2 * w64 (nc + 2 ^ 64 - 2)) * w64 (w64 (w64 (2 * p) + w64 (2 * u2)) + w64 (3 * cx)))
                     + w64 (w64 (6 * cx) + w64 (8 * u))))
      | _, _, _, _ => None
      end
  | TU | TU2 | TV | TVdg | TRX | TRY | TH | TSX | TSXdg => lin2 2 (rec TX nc) 4 (rec TU 0)
  | TP | TS | TSdg | TT | TTdg | TRZ => lin2 2 (rec TX nc) 3 (rec TP 0)
  | TY | TZ => lin2 1 (rec TX nc) 2 (rec TU 0)
  | TSWAP => lin2 1 (rec TX nc) 2 (rec TX 1)
  | TiSWAP => lin2 1 (lin2 2 (rec TX (w64 (nc + 1))) 2 (rec TS nc)) 2 (rec TH nc)
  | TPeres | TPeresdg => lin2 1 (rec TX (w64 (nc + 1))) 1 (rec TX nc)
  | _ => Some 1
  end.
(** the recursion, depth bounded by [fuel]; [None] = bound exceeded *)
Fixpoint cost_fuel (fuel : nat) (g : optype) (nc : N) : option N :=
  match fuel with O => None | S f => cost_body (cost_fuel f) g nc end.
Definition legacyCost (g : optype) (nc : N) : option N := cost_fuel 4 g nc.

(** what a scheme sees of the next operation of the first circuit *)
Record opview := mkView { v_type : optype; v_nc : N; v_used : N }.

Definition optype_eqb (a b : optype) : bool :=
  match a, b with
  | TI, TI | TH, TH | TX, TX | TY, TY | TZ, TZ | TS, TS | TSdg, TSdg | TT, TT | TTdg, TTdg | TP, TP
  | TU2, TU2 | TU, TU | TSX, TSX | TSXdg, TSXdg | TV, TV | TVdg, TVdg | TRX, TRX | TRY, TRY | TRZ, TRZ
  | TCompound, TCompound | TMeasure, TMeasure | TReset, TReset | TBarrier, TBarrier
  | TClassicControlled, TClassicControlled | TSWAP, TSWAP | TiSWAP, TiSWAP | TPeres, TPeres | TPeresdg, TPeresdg => true
  | TOther n, TOther m => n =? m
  | _, _ => false
  end.

Definition key := (optype * N)%type.
Definition table := list (key * N).
Definition key_eqb (a b : key) : bool := optype_eqb (fst a) (fst b) && (snd a =? snd b).
(** unordered_map::find *)
Fixpoint lookup (t : table) (k : key) : option N :=
  match t with [] => None | (k', v) :: r => if key_eqb k' k then Some v else lookup r k end.
(** unordered_map::emplace: no effect if the key is present *)
Definition emplace (t : table) (k : key) (v : N) : table :=
  match lookup t k with Some _ => t | None => t ++ [(k, v)] end.

(** SequentialApplicationScheme.hpp:16-32; [n1 n2] are the circuits' sizes at construction *)
Definition sequential_scheme (n1 n2 : N) : N * N := (n1, n2).
(** OneToOneApplicationScheme.hpp:23 *)
Definition onetoone_scheme : N * N := (1, 1).
(** ProportionalApplicationScheme.hpp:27-53; [n1 n2] are the remaining sizes, both positive *)
Definition proportional_scheme (fusion : bool) (v : opview) (n1 n2 : N) : N * N :=
  if fusion && (v_used v =? 1) then (1, 1) else
  let mn := N.min n1 n2 in
  let mx := N.max n1 n2 in
  let ratio := N.max (w64 (mx + mn / 2) / mn) 1 in
  if n2 <=? n1 then (ratio, 1) else (1, ratio).
(** GateCostApplicationScheme.hpp:64-83 *)
Definition gatecost_scheme (t : table) (fusion : bool) (v : opview) : N * N :=
  match t with
  | [] => (1, 1)
  | _ => if fusion && (v_used v =? 1) then (1, 1)
         else (1, match lookup t (v_type v, v_nc v) with Some c => c | None => 1 end)
  end.

(** GateCostApplicationScheme.hpp:90-103: table from a cost function and the two circuits *)
Definition populate_ops (cost : optype -> N -> N) (ops : list opview) (t : table) : table :=
  fold_left (fun t v => match lookup t (v_type v, v_nc v) with
                        | Some _ => t
                        | None => emplace t (v_type v, v_nc v) (cost (v_type v) (v_nc v)) end) ops t.
Definition table_from_cost (cost : optype -> N -> N) (ops1 ops2 : list opview) : table :=
  populate_ops cost ops2 (populate_ops cost ops1 []).

(** ** reading a profile: GateCostApplicationScheme.hpp:105-131 *)
Local Open Scope char_scope.
(** std::isspace in the "C" locale *)
Definition is_ws (c : ascii) : bool :=
  match c with " " | "009" | "010" | "011" | "012" | "013" => true | _ => false end.
Definition digit (c : ascii) : option N :=
  let n := N_of_ascii c in if (48 <=? n)%N && (n <=? 57)%N then Some (n - 48)%N else None.
Fixpoint skip_ws (l : list ascii) : list ascii :=
  match l with c :: r => if is_ws c then skip_ws r else l | [] => [] end.
(** [in >> token] for a std::string: maximal run of non-blanks *)
Fixpoint read_token (l : list ascii) : list ascii * list ascii :=
  match l with
  | c :: r => if is_ws c then ([], l) else let (t, r') := read_token r in (c :: t, r')
  | [] => ([], [])
  end.
(** digits, most significant first; None if there is none *)
Fixpoint read_digits (l : list ascii) (acc : N) : N * list ascii :=
  match l with
  | c :: r => match digit c with Some d => read_digits r (10 * acc + d)%N | None => (acc, l) end
  | [] => (acc, [])
  end.
(** [in >> n] for std::size_t: blanks, optional sign, digits; values above 2^64-1 set failbit, a minus sign negates
    modulo 2^64 (C++ [facet.num.get.virtuals], strtoull) *)
Definition read_num (l : list ascii) : option (N * list ascii) :=
  let l := skip_ws l in
  let '(neg, l) := match l with "-" :: r => (true, r) | "+" :: r => (false, r) | _ => (false, l) end in
  match l with
  | c :: _ =>
      match digit c with
      | None => None
      | Some _ => let (n, r) := read_digits l 0 in
                  if (n <? 2 ^ 64)%N then Some ((if neg then w64 (2 ^ 64 - n) else n), r) else None
      end
  | [] => None
  end.

(** what one line contributes: nothing, an entry, or an exception (unknown gate name; mqt-core's
    operator>>(OpType) calls opTypeFromString, which throws) *)
Inductive line_result := LSkip | LEntry (k : key) (c : N) | LThrow.
Definition read_line (tyof : string -> option optype) (line : list ascii) : line_result :=
  match line with
  | [] => LSkip
  | "#" :: _ => LSkip
  | _ =>
      let (tok, r) := read_token (skip_ws line) in
      match tok with
      | [] => LSkip
      | _ => match tyof (string_of_list_ascii tok) with
             | None => LThrow
             | Some ty => match read_num r with
                          | None => LSkip
                          | Some (nc, r2) => match read_num r2 with
                                             | None => LSkip
                                             | Some (c, _) => LEntry (ty, nc) c
                                             end
                          end
             end
      end
  end.
(** std::getline: split at newlines; a trailing newline does not start another line *)
Fixpoint split_lines (l : list ascii) (cur : list ascii) : list (list ascii) :=
  match l with
  | [] => match cur with [] => [] | _ => [List.rev cur] end
  | c :: r => if Ascii.eqb c "010" then List.rev cur :: split_lines r [] else split_lines r (c :: cur)
  end.
(** None: an exception leaves the constructor *)
Fixpoint read_lines (tyof : string -> option optype) (ls : list (list ascii)) (t : table) : option table :=
  match ls with
  | [] => Some t
  | l :: r => match read_line tyof l with
              | LSkip => read_lines tyof r t
              | LEntry k c => read_lines tyof r (emplace t k c)
              | LThrow => None
              end
  end.
Definition read_profile (tyof : string -> option optype) (content : string) : option table :=
  read_lines tyof (split_lines (list_ascii_of_string content) []) [].

(** ** writing a profile: compilation_flow_profiles.py:write_profile_data_to_file (lines 300-305).
    The dict is a list of ((gate name, controls), cost) in insertion order. *)
Definition dec (n : N) : string := NilZero.string_of_uint (N.to_uint n).
Definition nl : string := String "010" EmptyString.
Local Open Scope string_scope.
Definition write_entry (e : (string * N) * N) : string :=
  fst (fst e) ++ " " ++ dec (snd (fst e)) ++ " " ++ dec (snd e) ++ nl.
Definition write_profile (filename version : string) (data : list ((string * N) * N)) : string :=
  "# " ++ filename ++ ", Qiskit version: " ++ version ++ nl ++ String.concat "" (map write_entry data).
