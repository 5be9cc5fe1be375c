(** Proofs for C68. *)
From Coq Require Import BinNums NArith List Arith Lia.
From mathcomp Require Import all_ssreflect all_fingroup all_algebra.
From Verif Require Import Criterion Config SeqFlow SeqSpec VerdictSpec ParFlow ParSpec Perm PermSpec PermProofs Prep PrepSpec PrepProofs PrepProofs2 PrepProofs3 Passes PassesSpec StateGen Stim StimSpec
  Schemes DDCheck DDSpec Qubits DDSem DDFlow DDFlowProofs PrepSem PrepSemProofs PrepSemProofs2 PrepSemProofs3 Choice ParDecide PropPrep StimSem PropStim PropPrepSem PropParDecide Construct ConstructProofs.
Set Implicit Arguments.
Unset Strict Implicit.
Unset Printing Implicit Defensive.
Import GRing.Theory Num.Theory.
Local Open Scope ring_scope.

Section P.
Variable C : numClosedFieldType.
Local Notation gate := (gate C nat_eqType).
Local Notation op := (op nat gate).
Local Notation circ := (circ op).
Local Notation on := (@on_qubits C).
Local Notation calm := (calm on).

Section At.
Variables (m : nat) (c : circ).
Hypothesis K : ok m c.
Local Notation a := (as_circuit m c).
Lemma at_lay i q : (q < m.+1)%N -> i \in c_keys _ _ _ a -> c_layout _ _ _ a i = inord q -> maps (q_lay c) i q.
Proof.
have [[M _] _ B _ _] := K; move=> lq /(keysP m i M) [l L]; rewrite (lay_at m L) => /wire_inj e.
by rewrite -e //; apply: B; exists i.
Qed.
Lemma at_keys i q : maps (q_lay c) i q -> i \in c_keys _ _ _ a.
Proof. by have [[M _] _ _ _ _] := K; move=> L; apply/(keysP m i M); exists q. Qed.
Lemma idle_at i : idle on c i <-> is_idle a i.
Proof. by split=> [H|/idleP H o Ho]; [apply/idleP => o Ho; have := H o Ho; rewrite /on_qubits => ->|apply/negbTE; exact: H]. Qed.
Lemma out_at p q : (q < m.+1)%N -> (p, inord q) \in c_output _ _ _ a -> maps (q_out c) p q.
Proof.
have [_ [M _] B V _] := K; move=> lq /(outP p _ M) [v [L e]].
by rewrite (@wire_inj m q v) //; apply: B; apply: V; exists p.
Qed.
Lemma calm_alone q : (q < m.+1)%N -> calm c q -> leaves_alone a (inord q).
Proof.
have [[M I] [MO IO] B V KO] := K; move=> lq H; split.
  by move=> i ki li o Ho; have [Id _] := H i (at_lay lq ki li); apply/negbT; exact: Id.
case Ek: (qkey q (q_lay c)) => [p|].
  have L := qkey_some _ _ _ M Ek; have [Id [U|[U1 U2]]] := H p L.
    by right; exists p; [exact: lay_at|exact: outI].
  left; split.
    by apply/negP => /mapP [[i v] Iv /= e]; apply: U2; exists i; apply: (out_at lq); rewrite e.
  move=> i ki li; have Li := at_lay lq ki li; have ep : i = p by exact: I Li L.
  split; last by move=> o Ho; apply/negbT; rewrite ep; exact: Id.
  apply/negP => /mapP [[i' v] Iv /= e]; subst i'.
  by apply: U1; rewrite -ep; have [w [Mw _]] := (outP i v MO).1 Iv; exists w.
left; split.
  apply/negP => /mapP [[i v] Iv /= e]; apply: (qkey_none _ _ M Ek); apply: V; exists i; apply: (out_at lq); by rewrite e.
by move=> i ki li; case: (qkey_none _ _ M Ek); exists i; exact: at_lay.
Qed.
End At.

Lemma prepared_ok nd m (c1 c2 c1' c2' : circ) : wf_circ c1 -> wf_circ c2 -> prepare on nd c1 c2 = PVal (c1', c2') -> q_n c1' = m.+1 -> ok m c1' /\ ok m c2'.
Proof.
move=> W1 W2 EP Em; have [s1 [s2 [f [d1 [d2 [E [F [X1 [X2 [_ [_ [_ [_ H]]]]]]]]]]]]] := prepare_main on nd c1 c2 W1 W2.
move: E; rewrite EP => -[? ?]; subst d1 d2.
case B: (Nat.ltb (q_n s2) (q_n s1)) H => -[R P].
- have /ltP lt := proj1 (Nat.ltb_lt _ _) B; have m1 : q_n s1 = m.+1 by rewrite -Em; have [_ [-> _]] := R.
  split; first by apply: wf_ok; [exact: restored_wf R|rewrite Em].
  by apply: padded_ok P => //; [exact: ltnW|rewrite m1].
- have /leP ge := proj1 (Nat.ltb_ge _ _) B; have m2 : q_n s2 = m.+1 by rewrite -Em; have [_ [-> _]] := P.
  split; first by apply: padded_ok P => //; rewrite m2.
  by apply: wf_ok; [exact: restored_wf R|have [_ [-> _]] := R; rewrite m2].
Qed.

Section Prepared.
Variables (nd : bool) (m : nat) (c1 c2 c1' c2' : circ).
Hypotheses (W1 : wf_circ c1) (W2 : wf_circ c2) (EP : prepare on nd c1 c2 = PVal (c1', c2')) (Em : q_n c1' = m.+1).
Hypotheses (Wf1 : wf_circuit (as_circuit m c1')) (Wf2 : wf_circuit (as_circuit m c2')).
Local Notation p1 := (as_circuit m c1'). Local Notation p2 := (as_circuit m c2').
Local Notation A1 := (own_ancillaries m c1'). Local Notation A2 := (own_ancillaries m c2').
(* the constructor's question is the checker's *)
Lemma canHandle_can_handle : canHandle on c1' c2' = can_handle p1 p2 A1 A2.
Proof.
have [k1 k2] := prepared_ok W1 W2 EP Em.
have [_ [_ [En [M1 [M2 [I1 [I2 W]]]]]]] := prepare_flags on nd c1 c2 c1' c2' W1 W2 EP.
have CI := canHandle_iff on c1' c2' W En M1 M2 I1 I2.
apply/idP/idP => [/CI H|].
- apply/negPn/negP => /negbTE /(can_handle_exact _ _ Wf1 Wf2) [v [v1 v2 H']]; rewrite !inE in v1 v2.
  have Ev : v = inord v by rewrite inord_val.
  case: H' => [[[i [ki li [o Ho oi]]] [j [kj lj [o' Ho' oj]]]]|[N1 N2]].
    have Li := at_lay k1 (ltn_ord v) ki (etrans li Ev); have Lj := at_lay k2 (ltn_ord v) kj (etrans lj Ev).
    have lv : (v < q_n c1')%coq_nat by apply/ltP; rewrite Em.
    have [D|D] := H v i j lv v1 v2 Li Lj; [have := D o Ho|have := D o' Ho']; by rewrite /on_qubits ?oi ?oj.
  have lv : (v < q_n c1')%coq_nat by apply/ltP; rewrite Em.
  case: W => W.
    by have [p P] := wf_val c1' v W lv; apply: (N1 p (at_keys k1 P)); rewrite (lay_at m P) inord_val.
  by have [p P] := wf_val c2' v W ltac:(lia); apply: (N2 p (at_keys k2 P)); rewrite (lay_at m P) inord_val.
- move=> H; apply/CI => q i j lq a1 a2 Li Lj; have lq' : (q < m.+1)%N by rewrite -Em; apply/ltP.
  move/forallP/(_ (inord q)): H; rewrite !inE inordK // a1 a2 /=.
  rewrite (physical_uniq Wf1 (at_keys k1 Li) (lay_at m Li)) (physical_uniq Wf2 (at_keys k2 Lj) (lay_at m Lj)).
  by case/orP => /(idle_at); auto.
Qed.

Hypotheses (a1 : acts_inside c1) (a2 : acts_inside c2) (P1 : plain_ancillaries c1) (P2 : plain_ancillaries c2).
Hypothesis EA : forall q, (q < Nat.min (q_n c1) (q_n c2))%coq_nat -> q_anc c1 q = q_anc c2 q.
Lemma same_own : q_n c2' = m.+1 -> A1 = A2.
Proof.
move=> E2; have [H _] := prepared_ancillaries on nd c1 c2 c1' c2' W1 W2 a1 a2 P1 P2 EA EP.
by apply/setP => q; rewrite !inE H // Em; apply/ltP.
Qed.
Lemma handled_own : can_handle p1 p2 A1 A2 -> ancillaries_handled p1 p2 (A1 :&: A2).
Proof.
have [k1 k2] := prepared_ok W1 W2 EP Em.
have [_ H] := prepared_ancillaries on nd c1 c2 c1' c2' W1 W2 a1 a2 P1 P2 EA EP.
move=> /forallP CH v; rewrite !inE => /andP[v1 v2]; have Ev : v = inord v by rewrite inord_val.
have lv : (v < q_n c1')%coq_nat by apply/ltP; rewrite Em.
case: (H v lv v1 v2) => [[Q1 Q2]|[D|D]]; last by right; rewrite Ev; apply: (calm_alone k2).
  2: by left; rewrite Ev; apply: (calm_alone k1).
have := CH v; rewrite !inE v1 v2 /=.
have idle_calm (c : circ) (k : ok m c) i : quiet c v -> physical_of (as_circuit m c) v = Some i -> is_idle (as_circuit m c) i -> leaves_alone (as_circuit m c) v.
  move=> Q /physical_some [ki li] Id; have Li := at_lay k (ltn_ord v) ki (etrans li Ev); rewrite Ev; apply: calm_alone => // p Lp; split; last exact: Q.
  by have [[_ I] _ _ _ _] := k; rewrite (I _ _ _ Lp Li); exact: (proj2 (idle_at m c i) Id).
have none_calm (c : circ) (k : ok m c) : physical_of (as_circuit m c) v = None -> leaves_alone (as_circuit m c) v.
  move=> /physical_none N; rewrite Ev; apply: calm_alone => // p Lp; case: (N p (at_keys k Lp)); by rewrite (lay_at m Lp) inord_val.
case E1: (physical_of p1 v) => [i|]; case E2: (physical_of p2 v) => [j|] //.
- by case/orP => Id; [left; exact: idle_calm Id|right; exact: idle_calm Id].
- by move=> _; right; exact: none_calm.
- by move=> _; left; exact: none_calm.
Qed.
End Prepared.

(* the passes *)
Lemma apply_all_meaning n (apply : pass -> circ -> circ) ps : (forall p, List.In p ps -> keeps_meaning n (apply p)) ->
  keeps_meaning n (apply_all apply ps).
Proof.
elim: ps => [|p ps IH] H c G /=; first by split.
have [G1 n1 an1 r1] := H p (or_introl erefl) c G.
have [G2 n2 an2 r2] := IH (fun q I => H q (or_intror I)) _ G1.
by split=> [||q|V /r2 /r1] //; rewrite /apply_all /= -/(apply_all apply ps _) ?n2 ?an2.
Qed.
Lemma passes_meaning n (apply : pass -> circ -> circ) isEmpty isDynamic varfree o (c1 c2 o1 o2 : circ) :
  good_circuit n c1 -> good_circuit n c2 -> isDynamic c1 = false -> isDynamic c2 = false ->
  (forall p, List.In p (schedule o false) -> keeps_meaning n (apply p)) -> optimise apply isEmpty isDynamic varfree o c1 c2 = PVal (o1, o2) ->
  [/\ good_circuit n o1, q_n o1 = q_n c1, forall q, q_anc o1 q = q_anc c1 q & forall V, realises (as_circuit n o1) V -> realises (as_circuit n c1) V] /\
  [/\ good_circuit n o2, q_n o2 = q_n c2, forall q, q_anc o2 q = q_anc c2 q & forall V, realises (as_circuit n o2) V -> realises (as_circuit n c2) V].
Proof.
move=> G1 G2 d1 d2 H; rewrite C42_optimisation d1 d2 /=; case: (_ || _) => -[<- <-]; first by split; split.
by have K := apply_all_meaning H; split; apply: K.
Qed.

(* the whole constructor *)
Lemma clamped_le cfg sset n0 : clamp_sims (runSimulationChecker (exec cfg)) (stateTyp (sim cfg)) n0 (maxSims (sim cfg)) = Some sset -> (sset <= maxSims (sim cfg))%num.
Proof. exact: StateGenProofs2.clamp_le. Qed.

Lemma construct_parts (apply : pass -> circ -> circ) isEmpty isDynamic varfree nd cfg (c1 c2 c1' c2' : circ) s :
  construct on apply isEmpty isDynamic varfree nd cfg c1 c2 = PVal (c1', c2', s) ->
  exists o1 o2, [/\ optimise apply isEmpty isDynamic varfree (opts cfg) c1 c2 = PVal (o1, o2), prepare on nd o1 o2 = PVal (c1', c2'),
    (Passes.s_alt s, Passes.s_con s) = fallback on (runAlternatingChecker (exec cfg)) (runConstructionChecker (exec cfg)) c1' c2' &
    clamp_sims (runSimulationChecker (exec cfg)) (stateTyp (sim cfg)) (N.of_nat (primary c1')) (maxSims (sim cfg)) = Some (s_maxSims s)].
Proof.
rewrite /construct; case: (optimise _ _ _ _ _ _ _) => [[o1 o2]| | |] //=; case E: (prepare _ _ _ _) => [[d1 d2]| | |] //=.
case F: (fallback _ _ _ _ _) => [a k]; case CL: (clamp_sims _ _ _ _) => [x|] // [<- <- <-]; by exists o1, o2; split=> //=; rewrite F.
Qed.

Lemma anc_common n (c1 c2 o1 o2 : circ) : q_n o1 = q_n c1 -> q_n o2 = q_n c2 -> (forall q, q_anc o1 q = q_anc c1 q) -> (forall q, q_anc o2 q = q_anc c2 q) ->
  common_ancillaries n o1 o2 = common_ancillaries n c1 c2.
Proof. by move=> e1 e2 a1 a2; apply/setP => q; rewrite !inE e1 e2 a1 a2. Qed.

Local Notation mat n := (mat C [finType of 'I_n.+1]).
Local Notation vec n := (vec C [finType of 'I_n.+1]).
Section Facts.
Variables (apply : pass -> circ -> circ) (isEmpty isDynamic varfree : circ -> bool) (nd : bool) (cfg : config) (n m : nat) (c1 c2 c1' c2' : circ) (s : settings).
Hypotheses (G1 : good_circuit n c1) (G2 : good_circuit n c2) (AG : ancillaries_agree c1 c2) (d1 : isDynamic c1 = false) (d2 : isDynamic c2 = false).
Hypotheses (KM : forall p, List.In p (schedule (opts cfg) false) -> keeps_meaning n (apply p)).
Hypotheses (EC : construct on apply isEmpty isDynamic varfree nd cfg c1 c2 = PVal (c1', c2', s)) (En : maxn (q_n c1) (q_n c2) = n.+1) (Em : q_n c1' = m.+1).
Local Notation p1 := (as_circuit m c1'). Local Notation p2 := (as_circuit m c2').
Local Notation A1 := (own_ancillaries m c1'). Local Notation A2 := (own_ancillaries m c2').
Lemma construct_facts : exists o1 o2 : circ,
  [/\ [/\ good_circuit n o1, good_circuit n o2, ancillaries_last o1 & maxn (q_n o1) (q_n o2) = n.+1], prepare on nd o1 o2 = PVal (c1', c2'),
      common_ancillaries n o1 o2 = common_ancillaries n c1 c2,
      (forall V, realises (as_circuit n o1) V -> realises (as_circuit n c1) V) /\ (forall V, realises (as_circuit n o2) V -> realises (as_circuit n c2) V) &
      [/\ A1 = A2, can_handle p1 p2 A1 A2 -> ancillaries_handled p1 p2 (A1 :&: A2), canHandle on c1' c2' = can_handle p1 p2 A1 A2 &
          Passes.s_alt s = true -> can_handle p1 p2 A1 A2]].
Proof.
have [EA L] := AG; have [o1 [o2 [EO EP EF _]]] := construct_parts EC.
have [[H1 n1 an1 r1] [H2 n2 an2 r2]] := passes_meaning G1 G2 d1 d2 KM EO.
have [W1 a1 g1 P1 U1] := H1; have [W2 a2 g2 P2 U2] := H2.
have En' : maxn (q_n o1) (q_n o2) = n.+1 by rewrite n1 n2.
have L' : ancillaries_last o1 by move=> q q' le lt; rewrite !an1; apply: L => //; rewrite -n1.
have EA' q : (q < Nat.min (q_n o1) (q_n o2))%coq_nat -> q_anc o1 q = q_anc o2 q by rewrite n1 n2 an1 an2; exact: EA.
have [Em2 [F [[Wf1 Wf2] _ _ _ _]]] := C64_operators_kept W1 W2 a1 a2 g1 g2 EP En' Em.
have CH := canHandle_can_handle W1 W2 EP Em Wf1 Wf2.
exists o1, o2; split=> //; first exact: anc_common.
split=> //.
- exact: (same_own W1 W2 EP Em a1 a2 P1 P2 EA' Em2).
- exact: (handled_own W1 W2 EP Em a1 a2 P1 P2 EA').
- rewrite -CH; move: EF; rewrite /fallback; case: (canHandle _ _ _); first by [].
  by rewrite andbT; case: (runAlternatingChecker _) => -[-> _].
Qed.
Lemma exact_kept : exact_configured cfg -> exact_configured (constructed cfg s).
Proof.
have [o1 [o2 [_ _ EF _]]] := construct_parts EC; move: EF; rewrite /fallback /exact_configured /=.
by case: (runAlternatingChecker _) (runConstructionChecker _) (canHandle _ _ _) => [] [] [] /= [-> ->]; auto; case.
Qed.
Lemma no_exceptions_after (Stim Gen : Type) (e : env Stim Gen) q sch zero eps st :
  (Passes.s_alt s = true -> can_handle p1 p2 A1 A2) ->
  describes q sch zero p1 p2 A1 A2 eps st e -> checkers_constructible e (constructed cfg s) -> no_exceptions e (constructed cfg s).
Proof. by move=> alt [ch _ _ _] [k1 k2 k3 k4]; split=> //; split=> //; move=> al; split; [exact: k2|rewrite ch; exact: alt]. Qed.
End Facts.
Theorem construct_seq : forall (apply : pass -> circ -> circ) isEmpty isDynamic varfree nd cfg n m (c1 c2 c1' c2' : circ) (s : settings),
  good_circuit n c1 -> good_circuit n c2 -> ancillaries_agree c1 c2 -> isDynamic c1 = false -> isDynamic c2 = false ->
  (forall p, List.In p (schedule (opts cfg) false) -> keeps_meaning n (apply p)) -> exact_configured cfg ->
  construct (@on_qubits C) apply isEmpty isDynamic varfree nd cfg c1 c2 = PVal (c1', c2', s) -> maxn (q_n c1) (q_n c2) = n.+1 -> q_n c1' = m.+1 ->
  let p1 := as_circuit m c1' in let p2 := as_circuit m c2' in let A1 := own_ancillaries m c1' in let A2 := own_ancillaries m c2' in
  let A := common_ancillaries n c1 c2 in let c := constructed cfg s in
  forall zero : nat, exists V1 V2 : mat n, [/\ realises (as_circuit n c1) V1, realises (as_circuit n c2) V2 &
  forall (q : package C [finType of 'I_m.+1] nat_eqType) (sch : schemes) (eps : C), exact_package q -> good_schemes q p1 p2 sch -> 0 < eps ->
  forall (MT : Type) (word : MT -> N * MT) unif t (e : env stimulus (gen MT)) (clifford : stab -> vec m),
    clifford_states clifford -> stimuli_of word unif c1' c2' t e -> describes q sch zero p1 p2 A1 A2 eps (ket clifford) e -> checkers_constructible e c ->
    forall fuel pf ma, plain_sequential_run fuel e c ma -> exists ma', SeqFlow.run fuel pf e ma = Returned ma' /\ right_answer A V1 V2 (r_eq (m_res ma'))].
Proof.
move=> apply isEmpty isDynamic varfree nd cfg n m c1 c2 c1' c2' s G1 G2 AG d1 d2 KM ex EC En Em p1 p2 A1 A2 A c zero.
have [o1 [o2 [[[W1 a1 g1 P1 U1] [W2 a2 g2 P2 U2] L En'] EP EA [r1 r2] [e12 hA CH alt]]]] := construct_facts G1 G2 AG d1 d2 KM EC En Em.
have exk : exact_configured c := exact_kept EC ex.
have [V1 [V2 [R1 R2 H]]] := C65_run_with_generator_decides W1 W2 a1 a2 g1 g2 L U1 U2 EP En' Em zero.
exists V1, V2; split; [exact: r1|exact: r2|].
move=> q sch eps hq hs e0 MT word unif t e cl hc hst hd hk fuel pf ma [[Ec Ep cf nf gs] [lf nd0]].
rewrite -(N2Nat.id (maxSims (sim c))) in gs; have [l [g' [D El]]] := supplied_list _ _ _ gs.
have El' : N.of_nat (length l) = maxSims (sim c) by rewrite El N2Nat.id.
have [|||||||||ma' [Rm RA]] := H q sch eps hq hs e0 MT word unif t e cl hc hst hd fuel pf ma l g'; rewrite ?Ec //.
- exact: (no_exceptions_after alt hd hk).
- have [al|al] : Passes.s_alt s = true \/ Passes.s_alt s = false by case: (Passes.s_alt s); auto.
    by left.
  by right; split=> //; split=> //; case: exk; rewrite /= ?al.
- by lia.
- by move=> rs l0; apply: nd0 => //; rewrite -El' l0.
by exists ma'; split=> //; rewrite /A -EA.
Qed.
Theorem construct_par : forall (apply : pass -> circ -> circ) isEmpty isDynamic varfree nd cfg n m (c1 c2 c1' c2' : circ) (s : settings),
  good_circuit n c1 -> good_circuit n c2 -> ancillaries_agree c1 c2 -> isDynamic c1 = false -> isDynamic c2 = false ->
  (forall p, List.In p (schedule (opts cfg) false) -> keeps_meaning n (apply p)) -> exact_configured cfg ->
  construct (@on_qubits C) apply isEmpty isDynamic varfree nd cfg c1 c2 = PVal (c1', c2', s) -> maxn (q_n c1) (q_n c2) = n.+1 -> q_n c1' = m.+1 ->
  let p1 := as_circuit m c1' in let p2 := as_circuit m c2' in let A1 := own_ancillaries m c1' in let A2 := own_ancillaries m c2' in
  let A := common_ancillaries n c1 c2 in let c := constructed cfg s in
  forall zero : nat, exists V1 V2 : mat n, [/\ realises (as_circuit n c1) V1, realises (as_circuit n c2) V2 &
  forall (q : package C [finType of 'I_m.+1] nat_eqType) (sch : schemes) (eps : C), exact_package q -> good_schemes q p1 p2 sch -> 0 < eps ->
  forall (MT : Type) (word : MT -> N * MT) unif t (e : env stimulus (gen MT)) (clifford : stab -> vec m),
    clifford_states clifford -> stimuli_of word unif c1' c2' t e -> describes q sch zero p1 p2 A1 A2 eps (ket clifford) e -> checkers_constructible e c ->
    forall g pp x, plain_parallel_run e c g -> ~ zx_runs e c -> run_to_end e c g pp x -> p_main x = MReturned /\ right_answer A V1 V2 (r_eq (p_res x))].
Proof.
move=> apply isEmpty isDynamic varfree nd cfg n m c1 c2 c1' c2' s G1 G2 AG d1 d2 KM ex EC En Em p1 p2 A1 A2 A c zero.
have [o1 [o2 [[[W1 a1 g1 P1 U1] [W2 a2 g2 P2 U2] L En'] EP EA [r1 r2] [e12 hA CH alt]]]] := construct_facts G1 G2 AG d1 d2 KM EC En Em.
have exk : exact_configured c := exact_kept EC ex.
have [V1 [V2 [R1 R2 H]]] := C67_given_circuits W1 W2 a1 a2 g1 g2 L U1 U2 EP En' Em zero.
exists V1, V2; split; [exact: r1|exact: r2|].
move=> q sch eps hq hs e0 MT word unif t e cl hc hst hd hk g pp x [cf ss et gs nt] nz re.
rewrite /A -EA; apply: (H q sch eps hq hs e0 MT word unif t e cl hc hst hd c g pp x) => //.
by split=> //; split=> //; split=> //; split=> //; exact: (no_exceptions_after alt hd hk).
Qed.
End P.
