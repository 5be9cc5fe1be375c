(** Profiles from the gate tables to the table the C++ checkers use: C71. *)
From Coq Require Import String List Bool Arith ZArith NArith QArith Qabs Lia.
From Verif Require Import PyConfig PyProfile PyProfileProofs PyProfileSolver PropPyProfile ProfileGen ProfileGenSpec ProfileGenProofs ProfileGenProofs2 ProfileGenProofs3.
From Verif Require Import Schemes SchemesSpec SchemesProofs SchemesProofs2 SchemesProofs3.
Import ListNotations.
Local Open Scope string_scope.

(** C71. The circuit created for a general gate has its qubits and its controls, and the gate is applied to each of them once. *)
Theorem C71_general_circuit (qubits params controls : nat) (identifier : string) :
  let c := create_general_gate qubits params controls identifier in
  call_width c = (qubits + controls)%nat /\ NoDup (call_qubits c) /\ forall q, In q (call_qubits c) <-> (q < call_width c)%nat.
Proof.
  cbn [create_general_gate call_width call_qubits]. split; [reflexivity|]. split; [apply seq_NoDup|]. intros q. rewrite in_seq. lia.
Qed.
Print Assumptions C71_general_circuit.
(** The circuit for a multi-controlled gate has the controls, the target and the ancillaries of the mode: none, one from five controls on for the
    recursion (the table asks for one), and two fewer than controls for the v-chain (for which the table leaves the number open). *)
Theorem C71_multi_controlled_circuit (params controls : nat) (mode : option ancilla_mode) (identifier : string) :
  (2 <= controls)%nat ->
  let c := create_multi_controlled_gate 1 params controls mode (match mode with Some VChain => None | Some Recursion => Some 1%nat | _ => Some 0%nat end) identifier in
  call_width c = (controls + 1 + match mode with Some m => ancillas_needed m controls | None => 0 end)%nat /\
  NoDup (call_qubits c) /\ (forall q, In q (call_qubits c) <-> (q < call_width c)%nat).
Proof.
  intros L c. assert (Q : exists a, call_width c = (controls + 1 + a)%nat /\ a = match mode with Some m => ancillas_needed m controls | None => 0%nat end /\
    call_qubits c = seq 0 (controls + (1 + a))).
  { exists (match mode with Some m => ancillas_needed m controls | None => 0%nat end). split; [|split; [reflexivity|]]; subst c; unfold create_multi_controlled_gate; cbn [call_width call_qubits].
    - destruct mode as [[| |]|]; cbn [ancillas_needed]; try lia. destruct (Nat.ltb_spec controls 5), (Nat.leb_spec controls 4); lia.
    - rewrite seq_app. f_equal. cbn [seq Nat.add List.app]. f_equal. destruct mode as [[| |]|]; cbn [ancillas_needed]; rewrite ?(Nat.add_1_r controls); auto. }
  destruct Q as (a & W & A & Q). rewrite W, Q, <- A. split; [reflexivity|]. split; [apply seq_NoDup|]. intros q. rewrite in_seq. lia.
Qed.
Print Assumptions C71_multi_controlled_circuit.

(** Whatever the costs, a profile is generated (given that the solver yields as many coefficients as there are unknowns). *)
Theorem C71_total (cost : Z -> call -> Z) (solve : list (list Z) -> list Z -> option (list Q)) (level : Z) (m : ancilla_mode) :
  (forall mat f c, solve mat f = Some c -> length c = length f) -> profile_data cost solve level m <> None.
Proof. exact (profile_total cost solve level m). Qed.
Print Assumptions C71_total.
(** Up to eleven controls it has, for each gate of the tables, the cost of the circuit that realises that gate, for the gates that are phase gates of a fixed
    angle the cost of the phase gate where there is none of their own, and nothing else. *)
Theorem C71_contents (cost : Z -> call -> Z) (solve : list (list Z) -> list Z -> option (list Q)) (level : Z) (m : ancilla_mode) (d : dict) :
  profile_data cost solve level m = Some d -> forall (g : string) (nc : nat), (nc <= 11)%nat ->
  dget d (g, nc) = match measured_circuit m g nc with
                   | Some c => Some (cost level c)
                   | None => if fixed_phase g then match measured_circuit m "p" nc with Some c => Some (cost level c) | None => None end else None
                   end.
Proof.
  intros E g nc L. rewrite (profile_small cost solve level m d g nc E L). unfold measured. destruct (measured_circuit m g nc), (measured_circuit m "p" nc); reflexivity.
Qed.
Print Assumptions C71_contents.
(** Beyond eleven controls only phase gates, X gates, and the gates of a fixed angle (as the phase gate) have a cost, and none from 128 on. *)
Theorem C71_beyond (cost : Z -> call -> Z) (solve : list (list Z) -> list Z -> option (list Q)) (level : Z) (m : ancilla_mode) (d : dict) :
  profile_data cost solve level m = Some d -> forall (g : string) (nc : nat),
  ((11 < nc)%nat -> g <> "p" -> g <> "x" -> dget d (g, nc) = if fixed_phase g then dget d ("p", nc) else None) /\
  ((128 <= nc)%nat -> dget d (g, nc) = None).
Proof.
  intros E g nc. split; [exact (profile_large cost solve level m d g nc E)|]. intros L. destruct (dget d (g, nc)) as [v|] eqn:D; [|reflexivity].
  apply (profile_bound cost solve level m d g nc v E) in D. lia.
Qed.
Print Assumptions C71_beyond.
(** The costs of phase and X gates beyond eleven controls continue the seven largest measured ones by the first recurrence (of order one, two or three)
    that fits, or linearly: each is the integer nearest to the recurrence applied to those before it, up to the first that reaches 10^6. *)
Theorem C71_predicted (cost : Z -> call -> Z) (solve : list (list Z) -> list Z -> option (list Q)) (level : Z) (m : ancilla_mode) (d : dict) (g : string) :
  (forall mat f c, solve mat f = Some c -> length c = length f) -> profile_data cost solve level m = Some d -> g = "p" \/ g = "x" ->
  let s := skipn 5 (sorted (map (fun nc => match measured_circuit m g nc with Some c => cost level c | None => 0%Z end) (seq 0 12))) in
  length s = 7%nat /\
  exists c, ((c = [-1; 2]%Q /\ forall o, (1 <= o <= 3)%nat -> check_recurrence solve s o = None) \/
             (exists o, (1 <= o <= 3)%nat /\ length c = o /\ check_recurrence solve s o = Some c /\ forall o', (1 <= o' < o)%nat -> check_recurrence solve s o' = None)) /\
    exists ts : list Z, (length ts <= 116)%nat /\
      (forall j, (j < length ts)%nat -> dget d (g, (12 + j)%nat) = Some (nth j ts 0%Z) /\
         nearest (nth j ts 0%Z) (sumprod c (skipn (7 + j - length c) (s ++ firstn j ts)))) /\
      (forall j, (length ts <= j)%nat -> dget d (g, (12 + j)%nat) = None) /\
      ((length ts < 116)%nat -> exists t, nearest t (sumprod c (skipn (7 + length ts - length c) (s ++ ts))) /\ 1000000 <= inject_Z t).
Proof.
  intros HS E B s. destruct (predicted cost solve HS level m d g E B) as (L & c & C & ts & H1 & H2 & H3 & H4). split; [exact L|]. exists c. split; [exact C|].
  exists ts. split; [exact H1|]. split; [|split; [exact H3|]].
  - intros j J. destruct (H2 j J) as [V W]. split; [exact V|]. rewrite W at 1. exact (round_even_nearest _).
  - intros J. eexists. split; [|exact (H4 J)]. exact (round_even_nearest _).
Qed.
Print Assumptions C71_predicted.

(** What the C++ reader makes of the file: each gate of the profile has the cost the file gives it, as an unsigned number of 64 bits, and nothing else has. *)
Theorem C71_read_back (cost : Z -> call -> Z) (solve : list (list Z) -> list Z -> option (list Q)) (tyof : string -> option optype) (join : string -> string) (version content : string) (level : Z) (m : ancilla_mode) (d : dict) :
  one_line (join (generate_profile_name level m)) -> one_line version ->
  (forall g, In g profile_gates -> tyof g <> None) -> (forall g g', In g profile_gates -> In g' profile_gates -> tyof g = tyof g' -> g = g') ->
  profile_data cost solve level m = Some d -> profile_file cost solve join version level m = Some content ->
  exists t, read_profile tyof content = Some t /\
    (forall g ty nc, In g profile_gates -> tyof g = Some ty -> lookup t (ty, N.of_nat nc) = match dget d (g, nc) with Some c => cost_read c | None => None end) /\
    (forall ty n, (forall g, In g profile_gates -> tyof g <> Some ty) -> lookup t (ty, n) = None).
Proof.
  intros Hf Hv HT HI E F. unfold profile_file in F. rewrite E in F. injection F as <-. exact (profile_read cost solve tyof level m d _ _ Hf Hv HT HI E).
Qed.
Print Assumptions C71_read_back.
(** So the gate-cost scheme applies, for a gate of the tables with up to eleven controls, as many gates of the compiled circuit as the circuit that realises
    it was measured to have (if single-qubit gates are not fused or the gate acts on several qubits). *)
Theorem C71_scheme_follows_the_measurement (cost : Z -> call -> Z) (solve : list (list Z) -> list Z -> option (list Q)) (tyof : string -> option optype) (join : string -> string) (version : string) (level : Z) (m : ancilla_mode) :
  (forall mat f c, solve mat f = Some c -> length c = length f) ->
  one_line (join (generate_profile_name level m)) -> one_line version ->
  (forall g, In g profile_gates -> tyof g <> None) -> (forall g g', In g profile_gates -> In g' profile_gates -> tyof g = tyof g' -> g = g') ->
  exists content t, profile_file cost solve join version level m = Some content /\ read_profile tyof content = Some t /\
  forall (g : string) (c : call) (fusion : bool) (v : opview) (nc : nat), measured_circuit m g nc = Some c -> (0 <= cost level c < 2 ^ 64)%Z ->
    tyof g = Some (v_type v) -> v_nc v = N.of_nat nc -> fusion = false \/ v_used v <> 1%N ->
    gatecost_scheme t fusion v = (1, Z.to_N (cost level c))%N.
Proof. exact (scheme_follows cost solve tyof join version level m). Qed.
Print Assumptions C71_scheme_follows_the_measurement.

(** the names in the order of the tables *)
Definition demo_type (g : string) : option optype :=
  (fix go (l : list string) (n : N) := match l with [] => None | g' :: r => if String.eqb g' g then Some (TOther n) else go r (n + 1)%N end) profile_gates 0%N.
Lemma demo_type_total g : In g profile_gates -> demo_type g <> None.
Proof. intros I. vm_compute in I. repeat (destruct I as [<-|I]; [vm_compute; discriminate|]). destruct I. Qed.
Lemma demo_type_inj g g' : In g profile_gates -> In g' profile_gates -> demo_type g = demo_type g' -> g = g'.
Proof.
  intros I I'. vm_compute in I, I'.
  repeat (destruct I as [<-|I]; [repeat (destruct I' as [<-|I']; [first [intros _; reflexivity | vm_compute; discriminate]|]); destruct I'|]). destruct I.
Qed.
(** costs that depend on the number of controls as [concave] does *)
Definition demo_cost (level : Z) (c : call) : Z :=
  let n := Z.of_nat match c with Positional _ _ _ qs => length qs - 1 | Keywords _ _ _ cs _ _ => length cs end in
  (24 * (n + 1) - (n + 1) * (n + 1))%Z.
Lemma cramer_length mat f c : cramer mat f = Some c -> length c = length f.
Proof.
  intros H. unfold cramer in H. repeat match type of H with match ?x with _ => _ end = _ => destruct x; try discriminate end; injection H as <-; reflexivity.
Qed.
(** Although every measured cost is positive and below 200, the table has a cost above 2^63: a predicted cost that is negative wraps around. *)
Theorem C71_small_costs_refuted : ~ (forall cost solve tyof join version content level m t,
  (forall mat f c, solve mat f = Some c -> Forall2 (fun row v => (sumprod c row == inject_Z v)%Q) mat f) ->
  (forall g nc c, measured_circuit m g nc = Some c -> (0 < cost level c < 200)%Z) ->
  profile_file cost solve join version level m = Some content -> read_profile tyof content = Some t -> forall k v, lookup t k = Some v -> (v < 2 ^ 63)%N).
Proof.
  intros H. destruct (profile_data demo_cost cramer 1 NoAncilla) as [d|] eqn:E; [|vm_compute in E; discriminate].
  assert (F : profile_file demo_cost cramer (fun s => s) "1.0" 1 NoAncilla = Some (write_profile_data_to_file (generate_profile_name 1 NoAncilla) "1.0" d)) by (unfold profile_file; now rewrite E).
  set (content := write_profile_data_to_file (generate_profile_name 1 NoAncilla) "1.0" d) in F.
  destruct (C71_read_back demo_cost cramer demo_type (fun s => s) "1.0" content 1 NoAncilla d) as (t & R & H1 & _); [| |exact demo_type_total|exact demo_type_inj|exact E|exact F|].
  1, 2: intros HI; cbn in HI; repeat (destruct HI as [HI|HI]; [discriminate|]); exact HI.
  specialize (H demo_cost cramer demo_type (fun s => s) "1.0" content 1%Z NoAncilla t cramer_ok). assert (P : forall g nc c, measured_circuit NoAncilla g nc = Some c -> (0 < demo_cost 1 c < 200)%Z).
  { intros g nc c M. assert (I : In (g, nc) mkeys) by (apply (measured_key NoAncilla); congruence). vm_compute in I.
    repeat (destruct I as [I|I]; [injection I as <- <-; vm_compute in M; injection M as <-; vm_compute; split; reflexivity|]). destruct I. }
  specialize (H P F R (TOther 10%N, 24%N) (2 ^ 64 - 25)%N). assert (X : dget d ("p", 24%nat) = Some (-25)%Z).
  { assert (Y : match profile_data demo_cost cramer 1 NoAncilla with Some d => dget d ("p", 24%nat) | None => None end = Some (-25)%Z) by (vm_compute; reflexivity).
    rewrite E in Y. exact Y. }
  assert (K : lookup t (TOther 10, 24)%N = Some (2 ^ 64 - 25)%N).
  { assert (K := H1 "p" (TOther 10%N) 24%nat ltac:(vm_compute; auto 30) ltac:(vm_compute; reflexivity)). rewrite X in K. exact K. }
  specialize (H K). vm_compute in H. discriminate H.
Qed.
Print Assumptions C71_small_costs_refuted.

(** a v-chain with five controls uses three ancillaries, a recursion one *)
Example C71_circuits : measured_circuit VChain "x" 5 = Some (Keywords 9 "mcx" 0 [0; 1; 2; 3; 4]%nat 5 (Some ([6; 7; 8]%nat, VChain))) /\
  measured_circuit Recursion "x" 5 = Some (Keywords 7 "mcx" 0 [0; 1; 2; 3; 4]%nat 5 (Some ([6]%nat, Recursion))) /\
  measured_circuit Recursion "x" 4 = Some (Keywords 5 "mcx" 0 [0; 1; 2; 3]%nat 4 (Some ([], Recursion))) /\
  measured_circuit NoAncilla "u" 1 = Some (Positional 2 "cu" 4 [0; 1]%nat) /\ measured_circuit NoAncilla "t" 1 = None.
Proof. vm_compute. auto 10. Qed.
(** a generated profile meets the hypotheses *)
Example C71_nonvacuous : exists d, profile_data (fun level c => Z.of_nat (call_width c * 7)) cramer 1 VChain = Some d /\
  dget d ("x", 11%nat) = Some 147%Z /\ dget d ("x", 12%nat) = Some 161%Z /\ dget d ("swap", 1%nat) = Some 21%Z /\ dget d ("t", 3%nat) = Some 28%Z /\ dget d ("h", 2%nat) = None /\
  dget d ("tdg", 127%nat) = Some 896%Z.
Proof. eexists. split; [vm_compute; reflexivity|]. vm_compute. auto 10. Qed.
Example C71_names : (forall g, In g profile_gates -> demo_type g <> None) /\ (forall g g', In g profile_gates -> In g' profile_gates -> demo_type g = demo_type g' -> g = g') /\
  one_line (generate_profile_name 1 VChain).
Proof.
  split; [exact demo_type_total|]. split; [exact demo_type_inj|]. intros HI. cbn in HI. repeat (destruct HI as [HI|HI]; [discriminate|]). exact HI.
Qed.
