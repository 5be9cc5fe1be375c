(** What uncancelled runs of the decision-diagram checkers compute. *)
From Coq Require Import BinNums.
From mathcomp Require Import all_ssreflect all_fingroup all_algebra.
From Verif Require Import Criterion Schemes DDCheck DDSpec DDProofs DDProofs2 DDProofs3 Qubits QubitsProofs QubitsProofs2 DDSem.
Set Implicit Arguments.
Unset Strict Implicit.
Unset Printing Implicit Defensive.
Import GRing.Theory Num.Theory.
Local Open Scope ring_scope.

Section P.
Variables (C : numClosedFieldType) (Lg : finType) (Ph : eqType).
Local Notation mat := (mat C Lg).
Local Notation vec := (vec C Lg).
Local Notation Pm := (@Pm C Lg).
Local Notation gate := (gate C Ph).
Local Notation op := (op Ph gate).
Local Notation circuit := (circuit Ph Lg gate).
Local Notation xpkg := (@xpkg C Lg Ph).
Local Notation getDD := (getDD Ph Lg gate mat eq_op xpkg).
Local Notation trace := (trace eq_op xpkg).
Local Notation ops := (c_ops Ph Lg gate).
Local Notation keys := (c_keys Ph Lg gate).
Local Notation layout := (c_layout Ph Lg gate).
Local Notation output := (c_output Ph Lg gate).
Variables (geqb : gate -> gate -> bool) (view : op -> opview) (zero : Ph).

(** ** the tracked permutation keeps its image *)
Lemma image_swap (ks : seq Ph) (p : Ph -> Lg) a b : a \in ks -> b \in ks ->
  {subset map p ks <= map (swap_at Ph Lg eq_op p a b) ks}.
Proof.
move=> Ha Hb v /mapP[q Hq ->]; apply/mapP; rewrite /swap_at /upd.
case: (eqVneq q a) => [->|Na]; first by exists b => //; rewrite eqxx.
case: (eqVneq q b) => [->|Nb].
  exists a => //; case: eqP => [->|_] //; by rewrite eqxx.
by exists q => //; rewrite (negbTE Na) (negbTE Nb).
Qed.
Lemma image_trace (ks : seq Ph) (l : seq op) :
  List.Forall (fun o => {subset op_qubits o <= ks} -> forall p, {subset map p ks <= map (getDD false o p).2 ks}) l ->
  (forall o, List.In o l -> {subset op_qubits o <= ks}) -> forall p, {subset map p ks <= map (trace false l p).2 ks}.
Proof.
elim=> [|o r Ho Hr IH] HS p /= //.
have /(_ p) := Ho (HS o (or_introl erefl)); case: (getDD false o p) => [m p'] /= H1.
have := IH (fun o Ho => HS o (or_intror Ho)) p'; case: (trace false r p') => [ms pf] /= H2 v /H1; exact: H2.
Qed.
Lemma image_op (ks : seq Ph) (o : op) : {subset op_qubits o <= ks} -> forall p, {subset map p ks <= map (getDD false o p).2 ks}.
Proof.
elim/(@op_rect' Ph gate) : o => [g|a b|l IH] HS p //.
- by apply: image_swap; apply: HS; rewrite !inE eqxx ?orbT.
- rewrite getDD_comp /=; apply: image_trace => // o Ho q Hq; apply: HS; exact: In_mem_comp Ho Hq.
Qed.
Lemma image_ops (ks : seq Ph) (l : seq op) : (forall o, List.In o l -> {subset op_qubits o <= ks}) ->
  forall p, {subset map p ks <= map (trace false l p).2 ks}.
Proof. by move=> H p; apply: image_trace => //; apply/List.Forall_forall => o Ho; exact: image_op. Qed.

(** ** gates and the restored output permutation of one circuit *)
Lemma circuit_value (c : circuit) : wf_circuit c ->
  exists V p ms, [/\ realises c V,
    forall ST (act : mat -> ST -> ST) inv st,
      changePermutation Ph Lg gate mat eq_op eq_op xpkg ST act zero (keys c) (trace inv (ops c) (layout c)).2 (output c) st
      = Some (p, acts act ms st),
    prodl ms *m prodl (trace false (ops c) (layout c)).1 = V, map (@adj C _ _) ms = ms &
    (trace true (ops c) (layout c)).1 = map (@adj C _ _) (trace false (ops c) (layout c)).1].
Proof.
case=> Uk injL Hq [U1 U2 S1 S2].
have HF : List.Forall (op_ok (layout c) (mem (keys c))) (ops c).
  apply/List.Forall_forall => o Ho; apply: op_okP => [|q Hq']; [exact: injL | exact: (Hq _ _ Ho Hq')].
have T0 : tracks (layout c) (mem (keys c)) (layout c) 1 by move=> q _; rewrite perm1.
have [s T [E A B]] := trace_ok HF T0.
have EP inv : (trace inv (ops c) (layout c)).2 = (trace false (ops c) (layout c)).2 by case: inv => //; apply: trace_perm.
have S2' : {subset map snd (output c) <= map (trace false (ops c) (layout c)).2 (keys c)}.
  by move=> v /S2; apply: image_ops => o Ho q; apply: Hq.
have [p [ms [s' [Ec T' P' A' [O K _]]]]] := @chperm_ok C Lg Ph _ _ injL zero (keys c) (fun _ => erefl) (output c) _ s T U1 U2 S1 S2'.
exists (Pm s' *m sem_ops (layout c) (ops c)), p, ms; split=> //; last 1 first.
- by rewrite -P' -mulmxA -E Pm_1 mulmx1.
- exists s'; split=> // [i v Hi|q [Hg Hi]].
    rewrite -(O _ _ Hi) T' //; by apply: S1; apply/mapP; exists (i, v).
  have E1 : s q = q by rewrite B ?perm1 // => i Ki Ei o Ho; case: (Hi i Ki Ei) => _; apply.
  by rewrite K ?E1 // => i Ki Ei; case: (Hi i Ki Ei).
- by move=> ST act inv st; rewrite EP; exact: Ec.
Qed.

Lemma acts_left ms (f : mat) : acts (fun m f => m *m f) ms f = prodl ms *m f.
Proof. by rewrite /acts fold_left_foldl prodl_acc. Qed.
Lemma acts_right ms (f : mat) : acts (fun m f => f *m m) (map (@adj C _ _) ms) f = f *m adj (prodl ms).
Proof. by rewrite /acts fold_left_foldl prodr_acc. Qed.
Lemma acts_fst (T : Type) (m2 : mat -> T -> T) ms (s : T * T) :
  acts (fun m s => (m2 m s.1, s.2)) ms s = (acts m2 ms s.1, s.2).
Proof. by elim: ms s => [|m ms IH] [a b] //; rewrite !acts_cons IH. Qed.
Lemma acts_snd (T : Type) (m2 : mat -> T -> T) ms (s : T * T) :
  acts (fun m s => (s.1, m2 m s.2)) ms s = (s.1, acts m2 ms s.2).
Proof. by elim: ms s => [|m ms IH] [a b] //; rewrite !acts_cons IH. Qed.
Lemma acts_leftv ms (f : vec) : acts (fun m f => m *m f) ms f = prodl ms *m f.
Proof.
elim: ms f => [|m ms IH] f; first by rewrite /prodl /= mul1mx.
by rewrite acts_cons IH prodl_cons mulmxA.
Qed.

(** [V] is computed by the gates of [c] and the SWAPs [ms] of changePermutation *)
Definition computes (c : circuit) (V : mat) (ms : seq mat) : Prop :=
  [/\ exists p, forall ST (act : mat -> ST -> ST) inv st,
      changePermutation Ph Lg gate mat eq_op eq_op xpkg ST act zero (keys c) (trace inv (ops c) (layout c)).2 (output c) st
      = Some (p, acts act ms st),
    prodl ms *m prodl (trace false (ops c) (layout c)).1 = V, map (@adj C _ _) ms = ms &
    (trace true (ops c) (layout c)).1 = map (@adj C _ _) (trace false (ops c) (layout c)).1].
Lemma computes_ex c : wf_circuit c -> exists V ms, realises c V /\ computes c V ms.
Proof. by move/circuit_value => [V [p [ms [R H1 H2 H3 H4]]]]; exists V, ms; split=> //; split=> //; exists p. Qed.

Variables (c1 c2 : circuit) (V1 V2 : mat) (ms1 ms2 : seq mat).
Hypotheses (K1 : computes c1 V1 ms1) (K2 : computes c2 V2 ms2).

(** ** the alternating checker *)
Section Alt.
Variables (size : mat -> N) (sch : appscheme) (A : {set Lg}) (check : mat -> criterion) (old : criterion).
Hypotheses (hs : scheme_for c1 c2 sch).
Hypothesis skips : is_lookahead sch = false -> skips_ok eq_op xpkg (@g_swap C Ph) (alt_chk size) geqb c1 c2.
Hypothesis hidden : is_lookahead sch = true -> no_hidden_swap (ops c1) /\ no_hidden_swap (ops c2).

Lemma alt_never : exists2 y,
  alt_run geqb view zero size sch never c1 c2 A check old = RVerdict _ _ _ _ _ (check (V1 *m proj0 C A *m adj V2)) y &
  x_s _ _ _ _ _ y = V1 *m proj0 C A *m adj V2.
Proof.
have comm : sides_commute (alt_chk (C:=C) size) by move=> m n s /=; rewrite mulmxA.
have hid : is_lookahead sch = true -> k_inv2 _ _ (alt_chk (C:=C) size) = true /\ no_hidden_swap (ops c1) /\ no_hidden_swap (ops c2).
  by move=> H; split => //; apply: hidden.
have mono : monotone never by [].
have := @bound_ok Ph Lg gate mat mat eq_op xpkg (@g_swap C Ph) geqb view (alt_chk size) sch comm c1 c2 skips hid hs never (proj0 C A) mono.
rewrite /alt_run /run; case E : (execute _ _ _ _ _ _ _ _ _ _ _ _ _ _ _) => [x|] // _.
have := @finish_never Ph Lg gate mat mat eq_op xpkg (@g_swap C Ph) geqb view (alt_chk size) sch comm c1 c2 skips hid hs _ _ _ (initial_inv _ _ _ _ _ _ _ _) E.
cbv zeta; set z := finish _ _ _ _ _ _ _ _ _ _ _; rewrite initial_total => -[_ [_ [P1 P2 S]]].
have [[p1 H1] G1 A1 _] := K1; have [[p2 H2] G2 A2 T2] := K2.
rewrite /postprocess /= /alt_postprocess /chperm1 P1 S H1.
cbn [isDone never]; rewrite /chperm2; cbn [x_t2 x_s]; rewrite P2 H2.
set y := mkX _ _ _ _ _ _ _ _ _ _ _.
have HS : x_s _ _ _ _ _ y = V1 *m proj0 C A *m adj V2.
  rewrite /y /= -A2 acts_right acts_left T2 acts_right acts_left -G1 -G2 adj_mul !mulmxA //.
by eexists; [rewrite -HS; reflexivity|exact: HS].
Qed.
End Alt.

(** ** the construction and the simulation checker *)
Section Base.
Variables (T : Type) (mul : mat -> T -> T) (sch : appscheme).
Hypotheses (hs : scheme_for c1 c2 sch) (nl : is_lookahead sch = false).
Variables (ra1 ra2 : T -> T) (r1 r2 : T * T -> T * T).
Hypotheses (hr1 : forall s, r1 s = (ra1 s.1, s.2)) (hr2 : forall s, r2 s = (s.1, ra2 s.2)).
Variables (check : T * T -> criterion) (old : criterion) (a b : T).
Let k : chk mat (T * T) := mkChk mat (T * T) (fun m s => (mul m s.1, s.2)) (fun m s => (s.1, mul m s.2)) false (fun _ => false) (fun _ => N0) false.

Lemma base_never : exists l1 l2 y, [/\ prodl l1 = V1, prodl l2 = V2,
  run Ph Lg gate mat eq_op eq_op xpkg (@g_swap C Ph) geqb view (T * T) k sch never zero c1 c2
    r1 r2 id id false check (a, b) old
    = RVerdict _ _ _ _ _ (check (ra1 (acts mul l1 a), ra2 (acts mul l2 b))) y &
  x_s _ _ _ _ _ y = (ra1 (acts mul l1 a), ra2 (acts mul l2 b))].
Proof.
have comm : sides_commute k by [].
have hid : is_lookahead sch = true -> k_inv2 _ _ k = true /\ no_hidden_swap (ops c1) /\ no_hidden_swap (ops c2) by rewrite nl.
have skips : is_lookahead sch = false -> skips_ok eq_op xpkg (@g_swap C Ph) k geqb c1 c2 by [].
have mono : monotone never by [].
have := @bound_ok Ph Lg gate mat _ eq_op xpkg (@g_swap C Ph) geqb view k sch comm c1 c2 skips hid hs never (a, b) mono.
rewrite /run; case E : (execute _ _ _ _ _ _ _ _ _ _ _ _ _ _ _) => [x|] // _.
have := @finish_never Ph Lg gate mat _ eq_op xpkg (@g_swap C Ph) geqb view k sch comm c1 c2 skips hid hs _ _ _ (initial_inv _ _ _ _ _ _ _ _) E.
cbv zeta; set z := finish _ _ _ _ _ _ _ _ _ _ _; rewrite initial_total => -[_ [_ [P1 P2 S]]].
cbn [k_act1 k_act2 k_inv2 k] in S, P2; rewrite acts_fst acts_snd /= in S.
have [[p1 H1] G1 A1 _] := K1; have [[p2 H2] G2 A2 T2] := K2.
rewrite /postprocess; cbn [k_alt k]; rewrite /base_postprocess; cbn [isDone never]; rewrite /postprocessTask /chperm1; cbn [x_t1 x_s]; rewrite P1 S.
set st1 := (_, _) : T * T; rewrite H1.
cbn [isDone never on_state x_t1 x_t2 x_s x_c1 x_c2 x_tick]; rewrite /chperm2; cbn [x_t2 x_s]; rewrite P2.
rewrite hr1; set st2 := (_, _) : T * T; rewrite H2.
cbn [isDone never on_state x_t1 x_t2 x_s x_c1 x_c2 x_tick]; rewrite hr2.
set r := acts _ ms2 _.
have HS : (r.1, ra2 r.2) = (ra1 (acts mul ((trace false (ops c1) (layout c1)).1 ++ ms1) a), ra2 (acts mul ((trace false (ops c2) (layout c2)).1 ++ ms2) b)).
  by rewrite /r /k /= acts_snd /st2 /= acts_fst /st1 /= !acts_app.
exists ((trace false (ops c1) (layout c1)).1 ++ ms1), ((trace false (ops c2) (layout c2)).1 ++ ms2); eexists.
split; [by rewrite prodl_cat G1|by rewrite prodl_cat G2|rewrite -HS; reflexivity|exact: HS].
Qed.
End Base.

Lemma con_never sch A1 A2 check old : scheme_for c1 c2 sch -> is_lookahead sch = false ->
  exists2 y,
    con_run geqb view zero sch never c1 c2 A1 A2 check old = RVerdict _ _ _ _ _ (check (V1 *m proj0 C A1, V2 *m proj0 C A2)) y &
    x_s _ _ _ _ _ y = (V1 *m proj0 C A1, V2 *m proj0 C A2).
Proof.
move=> hs nl.
have [l1 [l2 [y [E1 E2 E S]]]] := @base_never mat (fun m f => m *m f) sch hs nl
  (fun f => f *m proj0 C A1) (fun f => f *m proj0 C A2) _ _ (fun _ => erefl) (fun _ => erefl) check old (proj0 C A1) (proj0 C A2).
exists y; move: E S; rewrite !acts_left E1 E2 -!mulmxA !proj0_idem => E S //.
Qed.
Lemma sim_never sch phi check old : scheme_for c1 c2 sch -> is_lookahead sch = false ->
  exists2 y,
    sim_run geqb view zero sch never c1 c2 phi check old = RVerdict _ _ _ _ _ (check (V1 *m phi, V2 *m phi)) y &
    x_s _ _ _ _ _ y = (V1 *m phi, V2 *m phi).
Proof.
move=> hs nl.
have hid1 (s : vec * vec) : s = (id s.1, s.2) by case: s.
have [l1 [l2 [y [E1 E2 E S]]]] := @base_never vec (fun m f => m *m f) sch hs nl id id id id hid1 hid1 check old phi phi.
exists y; move: E S; rewrite !acts_leftv E1 E2 => E S //.
Qed.
End P.
