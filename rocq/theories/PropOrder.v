(** C80: the order in which the lookahead and the one-to-one scheme apply the operations. Vocabulary: OrderSpec.v, DDSpec.v. Model: DDCheck.v. *)
From Coq Require Import List Bool NArith Arith.
From Verif Require Import Criterion Schemes DDCheck DDSpec OrderSpec OrderProofs PropDD.
Import ListNotations.

Section S.
Context {Ph Lg G M ST : Type}.
Variables (pheq : Ph -> Ph -> bool) (pk : pkg Ph Lg G M) (gswapt : G -> bool) (geqb : G -> G -> bool) (view : op Ph G -> opview).
Notation execute k sch := (execute Ph Lg G M pheq pk gswapt geqb view ST k sch never).
Notation final k x := (x_s Ph Lg G M ST (finish Ph Lg G M pheq pk gswapt ST k never x)).

(** Lookahead (which only the alternating checker accepts, C60): whatever the diagrams' sizes and the DD operations are, the uncancelled run
    computes what the greedy order gives: SWAPs first, then repeatedly that of the two next operations with the smaller result. *)
Theorem C80_lookahead_greedy : forall (k : chk M ST) (c1 c2 : circuit Ph Lg G) (s0 : ST),
  k_inv2 _ _ k = true -> no_hidden_swap (c_ops _ _ _ c1) -> no_hidden_swap (c_ops _ _ _ c2) ->
  exists x, execute k SLookahead (loop_bound Ph Lg G c1 c2) (initial Ph Lg G M ST c1 c2 s0) = Some x /\
    greedy (k_act1 _ _ k) (k_act2 _ _ k) (k_size _ _ k)
      (marked pheq pk gswapt false (c_ops _ _ _ c1) (c_layout _ _ _ c1)) (marked pheq pk gswapt true (c_ops _ _ _ c2) (c_layout _ _ _ c2)) s0 (final k x).
Proof. intros k c1 c2 s0 H. exact (lookahead_order pheq pk gswapt geqb view k c1 c2 H s0). Qed.

(** the greedy order always exists and leaves no choice *)
Theorem C80_greedy_is_a_function : forall (act1 act2 : M -> ST -> ST) (size : ST -> N) (l1 l2 : list (bool * M)) (s : ST),
  exists r, greedy act1 act2 size l1 l2 s r /\ forall r', greedy act1 act2 size l1 l2 s r' -> r' = r.
Proof.
  intros act1 act2 size l1 l2 s. destruct (greedy_total act1 act2 size _ l1 l2 s (le_n _)) as [r R]. exists r. split; [exact R|].
  intros r' R'. exact (greedy_det _ _ _ _ _ _ _ R' _ R).
Qed.

(** One-to-one, for checkers that do not skip equal gates and circuits without operations of type SWAP: strictly alternating. *)
Theorem C80_onetoone_alternates : forall (k : chk M ST) (c1 c2 : circuit Ph Lg G) (s0 : ST),
  (forall s, k_isid _ _ k s = false) -> plain gswapt (c_ops _ _ _ c1) -> plain gswapt (c_ops _ _ _ c2) ->
  exists x, execute k SOneToOne (loop_bound Ph Lg G c1 c2) (initial Ph Lg G M ST c1 c2 s0) = Some x /\
    final k x = alternate (k_act1 _ _ k) (k_act2 _ _ k) (fst (trace pheq pk false (c_ops _ _ _ c1) (c_layout _ _ _ c1)))
                  (fst (trace pheq pk (k_inv2 _ _ k) (c_ops _ _ _ c2) (c_layout _ _ _ c2))) s0.
Proof. intros k c1 c2 s0 H. exact (onetoone_order pheq pk gswapt geqb view k c1 c2 H s0). Qed.
End S.
Print Assumptions C80_lookahead_greedy.
Print Assumptions C80_greedy_is_a_function.
Print Assumptions C80_onetoone_alternates.

(** a checker that writes down in one list what is applied; after gate 20 of the second circuit the diagram is small, after the others it is
    as large as the number of the gate *)
Definition diary (inv : bool) : chk (list nat) (list (list nat)) :=
  mkChk (list nat) (list (list nat)) (fun m s => s ++ [1 :: m]) (fun m s => s ++ [2 :: m]) inv (fun _ => false)
    (fun s => match last s [] with [_; g; _; _] => if Nat.eqb g 20 then 3%N else N.of_nat g | _ => 0%N end) true.
Definition diary_run (sch : appscheme) (inv : bool) (ops1 ops2 : list (op nat nat)) :=
  let c l := mkCircuit nat nat nat l [0; 1] (fun q => q) [(0, 0); (1, 1)] in
  option_map (fun x => x_s _ _ _ _ _ (finish nat nat nat (list nat) Nat.eqb demo_pkg (fun _ => false) _ (diary inv) never x))
    (execute nat nat nat (list nat) Nat.eqb demo_pkg (fun _ => false) Nat.eqb (fun _ => mkView TX 0 1) _ (diary inv) sch never
       (loop_bound _ _ _ (c ops1) (c ops2)) (initial _ _ _ _ _ (c ops1) (c ops2) [])).
Notation g := (OGate nat nat).
Example C80_example :
  no_hidden_swap [g 10; OSwap _ _ 0 1; g 13] /\ no_hidden_swap [g 11; g 20; g 12] /\
  (* 10 before 11; the SWAP (no matrix: the package's identity); 11 before 13; 20 before 13; 12 before 13 *)
  diary_run SLookahead true [g 10; OSwap _ _ 0 1; g 13] [g 11; g 20; g 12]
    = Some [[1; 10; 0; 0]; [1]; [2; 11; 0; 1]; [2; 20; 0; 1]; [2; 12; 0; 1]; [1; 13; 1; 0]] /\
  diary_run SOneToOne false [g 10; g 13] [g 11; g 20; g 12]
    = Some [[1; 10; 0; 0]; [2; 11; 0; 0]; [1; 13; 0; 0]; [2; 20; 0; 0]; [2; 12; 0; 0]].
Proof.
  split; [|split]; [intros o [<-|[<-|[<-|[]]]]; eauto|intros o [<-|[<-|[<-|[]]]]; now left|]. split; vm_compute; reflexivity.
Qed.
