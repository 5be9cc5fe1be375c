(** The log of applied gates; runs of very small circuits (for the counterexamples). *)
From Coq Require Import List Bool NArith Arith Lia.
From Verif Require Import Criterion Schemes DDCheck DDSpec DDProofs DDProofs2 DDProofs3 DDProofs4.
Import ListNotations.

Section Log.
Context {Ph Lg G M : Type}.
Variables (pheq : Ph -> Ph -> bool) (pk : pkg Ph Lg G M) (gswapt : G -> bool) (geqb : G -> G -> bool)
          (view : op Ph G -> opview) (sch : appscheme) (c1 c2 : circuit Ph Lg G).
Lemma log1 (inv alt : bool) size l s : acts (k_act1 _ _ (log_chk (M:=M) inv alt size)) l s = (fst s ++ l, snd s).
Proof. revert s. induction l as [|m l IH]; intros [a b]; cbn; [now rewrite app_nil_r|]. change (acts (k_act1 _ _ (log_chk inv alt size)) l (a ++ [m], b) = (a ++ m :: l, b)). rewrite IH. cbn. now rewrite <- app_assoc. Qed.
Lemma log2 (inv alt : bool) size l s : acts (k_act2 _ _ (log_chk (M:=M) inv alt size)) l s = (fst s, snd s ++ l).
Proof. revert s. induction l as [|m l IH]; intros [a b]; cbn; [now rewrite app_nil_r|]. change (acts (k_act2 _ _ (log_chk inv alt size)) l (a, b ++ [m]) = (a, b ++ m :: l)). rewrite IH. cbn. now rewrite <- app_assoc. Qed.

Lemma log_run inv alt size : scheme_for c1 c2 sch ->
  (is_lookahead sch = true -> inv = true /\ no_hidden_swap (c_ops _ _ _ c1) /\ no_hidden_swap (c_ops _ _ _ c2)) ->
  exists x, execute Ph Lg G M pheq pk gswapt geqb view _ (log_chk inv alt size) sch never (length (c_ops _ _ _ c1) + length (c_ops _ _ _ c2) + 1)
              (initial Ph Lg G M _ c1 c2 ([], [])) = Some x /\
    x_s _ _ _ _ _ (finish Ph Lg G M pheq pk gswapt _ (log_chk inv alt size) never x) =
      (fst (trace pheq pk false (c_ops _ _ _ c1) (c_layout _ _ _ c1)), fst (trace pheq pk inv (c_ops _ _ _ c2) (c_layout _ _ _ c2))).
Proof.
  intros HS HL. set (k := log_chk inv alt size).
  assert (comm : sides_commute k) by (intros m n [a b]; reflexivity).
  assert (skips : is_lookahead sch = false -> skips_ok pheq pk gswapt k geqb c1 c2).
  { intros _ pre1 o1 post1 pre2 o2 post2 s _ _ _ H. discriminate. }
  assert (hid : is_lookahead sch = true -> k_inv2 _ _ k = true /\ no_hidden_swap (c_ops _ _ _ c1) /\ no_hidden_swap (c_ops _ _ _ c2)) by exact HL.
  pose proof (execute_bound pheq pk gswapt geqb view k sch c1 c2 HS (length (c_ops _ _ _ c1) + length (c_ops _ _ _ c2) + 1)
                (initial Ph Lg G M _ c1 c2 ([], []))) as HB. cbn [initial x_t1 x_t2 tm_reset t_rest] in HB.
  destruct (execute _ _ _ _ _ _ _ _ _ _ k _ _ _ _) as [x|] eqn:E; [|exfalso; apply HB; [lia|lia|reflexivity]].
  exists x. split; [reflexivity|].
  pose proof (finish_never pheq pk gswapt geqb view k sch comm c1 c2 skips hid HS _ _ _ (initial_inv _ _ _ _ _ _ _ _) E) as F. cbv zeta in F.
  rewrite initial_total in F. destruct F as (_ & _ & F). injection F as _ _ F. rewrite F. match goal with |- acts ?a ?l (acts ?b ?l2 ?s) = _ => change (acts (k_act2 _ _ (log_chk inv alt size)) l (acts (k_act1 _ _ (log_chk inv alt size)) l2 s) = (l2, l)) end. rewrite log1, log2. reflexivity.
Qed.
End Log.

Section Tiny.
Context {Ph Lg G M ST : Type}.
Variables (pheq : Ph -> Ph -> bool) (lgeq : Lg -> Lg -> bool) (pk : pkg Ph Lg G M) (gswapt : G -> bool) (geqb : G -> G -> bool)
          (view : op Ph G -> opview) (k : chk M ST) (zero : Ph) (c1 c2 : circuit Ph Lg G)
          (ra1 ra2 rg1 rg2 : ST -> ST) (part : bool) (check : ST -> criterion).
Notation run s := (run Ph Lg G M pheq lgeq pk gswapt geqb view ST k s never zero c1 c2 ra1 ra2 rg1 rg2 part check).
Notation chp act c p s := (changePermutation Ph Lg G M pheq lgeq pk ST act zero (c_keys _ _ _ c) p (c_output _ _ _ c) s).

Notation exec s := (execute Ph Lg G M pheq pk gswapt geqb view ST k s never).
Notation mkx := (mkX Ph Lg G M ST).
Notation mkt := (mkTm Ph Lg G).
Lemma exec_stop sch f x : both_left _ _ _ _ _ x = false -> exec sch (S f) x = Some x.
Proof. intros H. cbn [execute]. now rewrite H. Qed.
Lemma exec_skip sch f s g h p q c d t : is_lookahead sch = false -> k_isid _ _ k s = true -> geqb g h = true -> gswapt g = false -> gswapt h = false ->
  exec sch (S f) (mkx s (mkt [OGate _ _ g] p) (mkt [OGate _ _ h] q) c d t) = exec sch f (mkx s (mkt [] p) (mkt [] q) c d (S (S t))).
Proof.
  intros NL HI HG N1 N2. cbn [execute both_left x_t1 x_t2 finished t_rest negb andb]. unfold isDone at 1. unfold never at 1. cbn [x_s x_t1 x_t2 x_c1 x_c2 x_tick].
  assert (E : swaps2 Ph Lg G M pheq pk gswapt ST k (swaps1 Ph Lg G M pheq pk gswapt ST k (mkx s (mkt [OGate _ _ g] p) (mkt [OGate _ _ h] q) c d (S t)))
    = mkx s (mkt [OGate _ _ g] p) (mkt [OGate _ _ h] q) c d (S t)).
  { unfold swaps1, swaps2, on1, on2, applySwapOperations. cbn [t_rest t_perm apply_swaps is_swap x_t1 x_s x_t2 x_c1 x_c2 x_tick]. rewrite N1.
    cbn [x_s x_t1 x_t2 x_c1 x_c2 x_tick t_rest t_perm apply_swaps is_swap]. now rewrite N2. }
  rewrite E. cbn [both_left x_t1 x_t2 finished t_rest negb andb]. unfold isDone at 1. unfold never at 1.
  cbn [both_left x_s x_t1 x_t2 x_c1 x_c2 x_tick t_rest t_perm gatesAreIdentical op_eqb]. rewrite HI, NL, HG. reflexivity.
Qed.

(** two single gates that are taken for equal are skipped, whatever the layouts are *)
Lemma run_skip sch g h s0 old p1 p2 s1 s2 : is_lookahead sch = false -> k_alt _ _ k = true -> k_isid _ _ k s0 = true -> geqb g h = true -> gswapt g = false -> gswapt h = false ->
  c_ops _ _ _ c1 = [OGate _ _ g] -> c_ops _ _ _ c2 = [OGate _ _ h] ->
  chp (k_act1 _ _ k) c1 (c_layout _ _ _ c1) s0 = Some (p1, s1) -> chp (k_act2 _ _ k) c2 (c_layout _ _ _ c2) s1 = Some (p2, s2) ->
  exists y, run sch s0 old = RVerdict _ _ _ _ _ (check s2) y.
Proof.
  intros NL HA HI HG N1 N2 O1 O2 H1 H2. unfold DDCheck.run. unfold initial, tm_reset at 1. unfold tm_reset at 1.
  unfold loop_bound. rewrite O1, O2. change (length [OGate Ph G g] + length [OGate Ph G h] + 2) with (S (S 2)).
  rewrite exec_skip by assumption. rewrite exec_stop by reflexivity.
  unfold finish. rewrite HA. unfold isDone, never, finish1, finish2, on1, on2, tm_finish. cbn [x_s x_t1 x_t2 x_c1 x_c2 x_tick t_rest t_perm finish_fuel length].
  unfold DDCheck.postprocess. rewrite HA. unfold alt_postprocess, chperm1. cbn [x_s x_t1 x_t2 x_c1 x_c2 x_tick t_rest t_perm]. rewrite H1.
  unfold isDone, never, chperm2. cbn [x_s x_t1 x_t2 x_c1 x_c2 x_tick t_rest t_perm]. rewrite H2.
  cbn [x_s x_t1 x_t2 x_c1 x_c2 x_tick t_rest t_perm]. eexists. reflexivity.
Qed.

Lemma exec_look f s g l p q t m1 m2 p1 p2 : gswapt g = false ->
  getDD _ _ _ _ pheq pk false (OGate _ _ g) p = (m1, p1) -> getDD _ _ _ _ pheq pk true (OComp _ _ l) q = (m2, p2) ->
  (k_size _ _ k (k_act1 _ _ k m1 s) <= k_size _ _ k (k_act2 _ _ k m2 s))%N ->
  exec SLookahead (S f) (mkx s (mkt [OGate _ _ g] p) (mkt [OComp _ _ l] q) None None t) =
  exec SLookahead f (mkx (k_act1 _ _ k m1 s) (mkt [] p1) (mkt [OComp _ _ l] p2) None (Some m2) (S (S (S (S t))))).
Proof.
  intros N1 D1 D2 HS. cbn [execute both_left x_t1 x_t2 finished t_rest negb andb]. unfold isDone at 1. unfold never at 1. cbn [x_s x_t1 x_t2 x_c1 x_c2 x_tick].
  assert (E : swaps2 Ph Lg G M pheq pk gswapt ST k (swaps1 Ph Lg G M pheq pk gswapt ST k (mkx s (mkt [OGate _ _ g] p) (mkt [OComp _ _ l] q) None None (S t)))
    = mkx s (mkt [OGate _ _ g] p) (mkt [OComp _ _ l] q) None None (S t)).
  { unfold swaps1, swaps2, on1, on2, applySwapOperations. cbn [t_rest t_perm apply_swaps is_swap x_t1 x_s x_t2 x_c1 x_c2 x_tick]. rewrite N1.
    reflexivity. }
  rewrite E. cbn [both_left x_t1 x_t2 finished t_rest negb andb]. unfold isDone at 1. unfold never at 1.
  cbn [both_left x_s x_t1 x_t2 x_c1 x_c2 x_tick t_rest t_perm gatesAreIdentical op_eqb is_lookahead negb]. rewrite andb_false_r. cbn [andb].
  assert (Q : lookahead Ph Lg G M pheq pk ST k (mkx s (mkt [OGate _ _ g] p) (mkt [OComp _ _ l] q) None None (S (S t))) =
              mkx (k_act1 _ _ k m1 s) (mkt [] p1) (mkt [OComp _ _ l] p2) None (Some m2) (S (S t))).
  { unfold lookahead, cache1. cbn [x_s x_t1 x_t2 x_c1 x_c2 x_tick t_rest t_perm]. rewrite D1. unfold cache2.
    cbn [x_s x_t1 x_t2 x_c1 x_c2 x_tick t_rest t_perm]. rewrite D2. cbn [x_s x_t1 x_t2 x_c1 x_c2 x_tick t_rest t_perm].
    apply N.leb_le in HS. rewrite HS. reflexivity. }
  cbn [query]. rewrite Q. reflexivity.
Qed.

(** the lookahead scheme on one gate against a compound operation: the cached operation is computed a second time by finish() *)
Lemma run_lookahead g l s0 old m1 m2 m2' p1 p2 p2' q1 q2 s1 s2 : k_alt _ _ k = true -> k_inv2 _ _ k = true ->
  gswapt g = false ->
  c_ops _ _ _ c1 = [OGate _ _ g] -> c_ops _ _ _ c2 = [OComp _ _ l] ->
  getDD _ _ _ _ pheq pk false (OGate _ _ g) (c_layout _ _ _ c1) = (m1, p1) ->
  getDD _ _ _ _ pheq pk true (OComp _ _ l) (c_layout _ _ _ c2) = (m2, p2) ->
  getDD _ _ _ _ pheq pk true (OComp _ _ l) p2 = (m2', p2') ->
  (k_size _ _ k (k_act1 _ _ k m1 s0) <= k_size _ _ k (k_act2 _ _ k m2 s0))%N ->
  chp (k_act1 _ _ k) c1 p1 (k_act2 _ _ k m2' (k_act1 _ _ k m1 s0)) = Some (q1, s1) -> chp (k_act2 _ _ k) c2 p2' s1 = Some (q2, s2) ->
  exists y, run SLookahead s0 old = RVerdict _ _ _ _ _ (check s2) y.
Proof.
  intros HA HI N1 O1 O2 D1 D2 D2' HS H1 H2. unfold DDCheck.run. unfold initial, tm_reset at 1. unfold tm_reset at 1.
  unfold loop_bound. rewrite O1, O2. change (length [OGate Ph G g] + length [OComp Ph G l] + 2) with (S (S 2)).
  rewrite (exec_look _ _ _ _ _ _ _ _ _ _ _ N1 D1 D2 HS). rewrite exec_stop by reflexivity.
  unfold finish. rewrite HA. unfold isDone, never, finish1, finish2, on1, on2, tm_finish. rewrite HI.
  cbn [x_s x_t1 x_t2 x_c1 x_c2 x_tick t_rest t_perm finish_fuel length finished].
  unfold advance. cbn [length t_rest advance_fuel N.eqb orb finished]. unfold applyGate. cbn [t_rest t_perm]. rewrite D2'.
  unfold applySwapOperations. cbn [t_rest t_perm apply_swaps advance_fuel finish_fuel].
  unfold DDCheck.postprocess. rewrite HA. unfold alt_postprocess, chperm1. cbn [x_s x_t1 x_t2 x_c1 x_c2 x_tick t_rest t_perm]. rewrite H1.
  unfold isDone, never, chperm2. cbn [x_s x_t1 x_t2 x_c1 x_c2 x_tick t_rest t_perm]. rewrite H2.
  cbn [x_s x_t1 x_t2 x_c1 x_c2 x_tick t_rest t_perm]. eexists. reflexivity.
Qed.
End Tiny.
