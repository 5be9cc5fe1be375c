(** Model of the extrapolation of gate-cost profiles, src/mqt/qcec/compilation_flow_profiles.py:231-426. No proofs in this file.

    A profile is a Python dict with keys (gate, controls): an association list in insertion order. Costs are integers. The transpilation
    that measures costs (compute_cost) is an input. numpy's floating-point arithmetic is exact rational arithmetic; np.linalg.det/inv are an
    arbitrary solver of linear systems. *)
From Coq Require Import String List Bool Arith ZArith NArith QArith Qround Qabs.
Import ListNotations.

Definition pkey : Type := string * nat.
Definition pkey_eqb (a b : pkey) : bool := String.eqb (fst a) (fst b) && Nat.eqb (snd a) (snd b).
Definition dict : Type := list (pkey * Z).
(** d.get(k) *)
Fixpoint dget (d : dict) (k : pkey) : option Z := match d with [] => None | (k', v) :: r => if pkey_eqb k' k then Some v else dget r k end.
(** d[k] = v *)
Fixpoint dset (d : dict) (k : pkey) (v : Z) : dict :=
  match d with [] => [(k, v)] | (k', w) :: r => if pkey_eqb k' k then (k', v) :: r else (k', w) :: dset r k v end.
(** d.setdefault(k, v) *)
Definition setdefault (d : dict) (k : pkey) (v : Z) : dict := match dget d k with Some _ => d | None => dset d k v end.
(** d.update(d2) *)
Definition dupdate (d d2 : dict) : dict := fold_left (fun d e => dset d (fst e) (snd e)) d2 d.

(** compilation_flow_profiles.py:275-292. (The code compares strings with 'is'; the identity of the string literals involved is that of CPython's
    interning, and is equality) *)
Definition add_special_case_data (gates : list string) (underlying : string) (d : dict) : dict :=
  fold_left (fun acc e => if String.eqb (fst (fst e)) underlying then fold_left (fun acc g => setdefault acc (g, snd (fst e)) (snd e)) gates acc else acc) d d.
(** lines 281-284 *)
Definition special_gates : list string := ["z"; "s"; "sdg"; "t"; "tdg"]%string.

(** int(np.round(x)): to the nearest integer, halves to even *)
Definition round_even (q : Q) : Z :=
  let f := Qfloor q in
  match Qcompare (q - inject_Z f) (1 # 2) with Lt => f | Gt => (f + 1)%Z | Eq => if Z.even f then f else (f + 1)%Z end.
(** the sum of the products of two sequences *)
Fixpoint sumprod (c : list Q) (x : list Z) : Q := match c, x with a :: c', b :: x' => a * inject_Z b + sumprod c' x' | _, _ => 0 end.
(** sequence[-order:] for order >= 1 *)
Definition lastn (n : nat) (l : list Z) : list Z := skipn (length l - n) l.
(** sequence[a : a + n] *)
Definition slice (a n : nat) (l : list Z) : list Z := firstn n (skipn a l).

Section Profile.
(** lines 313-319: the solution of mat * c = f, None if the determinant is 0 *)
Variable solve : list (list Z) -> list Z -> option (list Q).

(** compilation_flow_profiles.py:308-326 *)
Definition check_recurrence (s : list Z) (order : nat) : option (list Q) :=
  if length s <? 2 * order + 1 then None
  else match solve (map (fun i => slice i order s) (seq 0 order)) (map (fun i => nth (i + order) s 0%Z) (seq 0 order)) with
       | None => None
       | Some c => if forallb (fun i => Qle_bool (Qabs (sumprod c (slice (i - order) order s) - inject_Z (nth i s 0%Z))) (1 # 100)) (seq (2 * order) (length s - 2 * order))
                   then Some c else None
       end.
(** lines 347-355 *)
Fixpoint first_recurrence (s : list Z) (orders : list nat) : option (list Q) :=
  match orders with [] => None | o :: r => match check_recurrence s o with Some c => Some c | None => first_recurrence s r end end.
Definition coefficients (s : list Z) (max_order : nat) : list Q :=
  match first_recurrence s (seq 1 max_order) with Some c => c | None => [-1; 2] end.
(** line 360: the next term. numpy multiplies sequences of equal length entry by entry and repeats a single entry; other lengths are a
    ValueError *)
Definition next_term (c : list Q) (s : list Z) : option Z :=
  let w := lastn (length c) s in
  if length w =? length c then Some (round_even (sumprod c w))
  else match w with [x] => Some (round_even (sumprod c (repeat x (length c)))) | _ => None end.
(** lines 357-364: k terms from i on *)
Fixpoint extend (gate : string) (max_control : nat) (cut : Q) (c : list Q) (k i : nat) (s : list Z) (d : dict) : option dict :=
  match k with
  | O => Some d
  | S k' => match next_term c s with
            | None => None
            | Some t => if Qle_bool cut (inject_Z t) then Some d
                        else extend gate max_control cut c k' (S i) (s ++ [t]) (dset d (gate, (max_control + i + 1)%nat) t)
            end
  end.
(** insertion sort stands for sorted() *)
Fixpoint insert (x : Z) (l : list Z) : list Z := match l with [] => [x] | y :: r => if Z.leb x y then x :: l else y :: insert x r end.
Definition sorted (l : list Z) : list Z := fold_right insert [] l.
(** lines 338-345 *)
Definition sequence (d : dict) (gate : string) (cutoff : nat) : list Z :=
  skipn cutoff (sorted (map snd (filter (fun e => String.eqb (fst (fst e)) gate) d))).
(** compilation_flow_profiles.py:329-364; None: ValueError *)
Definition find_continuation (d : dict) (gate : string) (cutoff max_order max_control max_qubits : nat) (cut : Q) : option dict :=
  let s := sequence d gate cutoff in
  extend gate max_control cut (coefficients s max_order) (max_qubits - max_control - 1) 0 s d.

(** lines 375-421 without the file: from the measured costs of the general gates, the multi-controlled phase gates and the gates of the mode *)
Definition generate_profile (general mcphase moded : dict) : option dict :=
  let cont d g := find_continuation d g 5 3 11 128 1000000 in
  match cont (dupdate general mcphase) "p"%string with
  | None => None
  | Some d => match cont (dupdate d moded) "x"%string with
              | None => None
              | Some d => Some (add_special_case_data special_gates "p" d)
              end
  end.
End Profile.
