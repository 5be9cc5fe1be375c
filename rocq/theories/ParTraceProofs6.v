(** Lemmas for C77: the accesses to the cancellation flags. *)
From Coq Require Import String List Bool NArith QArith Arith Lia.
From Verif Require Import Criterion Config SeqFlow ParFlow Trace ParTrace RaceSpec.
Import ListNotations.
Local Open Scope list_scope.
Local Open Scope nat_scope.

Section Flags.
Context {Stim Gen : Type}.
Notation env := (env Stim Gen).
Notation tst := (@tst Stim Gen).

Definition flagok (w : what loc) : Prop := match w with Acc Rd (LFlag _) => False | _ => True end.

Lemma fo_reports s : Forall flagok (@reports Stim Gen s).
Proof.
  apply Forall_forall. intros w H. unfold reports in H. apply in_concat in H. destruct H as [l [H1 H2]].
  apply in_map_iff in H1. destruct H1 as [p [<- _]]. destruct H2 as [<- | H2]; [exact I|].
  destruct (has_chk (snd p)); [destruct H2 as [<- | []]; exact I | destruct H2].
Qed.
Lemma fo_waits n T : Forall flagok (@waits Stim Gen n T).
Proof. apply Forall_forall. intros w H. apply in_map_iff in H. destruct H as [i [<- _]]. exact I. Qed.

Ltac fo := repeat (apply Forall_app; split); repeat first [ apply fo_waits | apply fo_reports | apply Forall_cons; [exact I|] | apply Forall_nil | apply Forall_app; split ].
Lemma fo_main (T : tst) l T' : main_events T = (l, T') -> Forall flagok l.
Proof.
  unfold main_events. intros H.
  repeat (match goal with H : match ?x with _ => _ end = _ |- _ => destruct x end; try (injection H as <- <-));
  try (injection H as <- <-); unfold popping, rd, wr in *; cbn [app]; fo;
  repeat match goal with |- context [match ?x with _ => _ end] => destruct x end; cbn [app]; fo.
Qed.
Lemma fo_worker (e : env) i s : Forall flagok (worker_events e i s).
Proof.
  unfold worker_events.
  repeat match goal with |- context [match ?x with _ => _ end] => destruct x end; cbn; fo.
Qed.
Definition flagtr (tr : trace loc) : Prop := forall t w, In (t, w) tr -> flagok w.
Lemma fo_thread t l : Forall flagok l -> flagtr (as_thread t l).
Proof. intros F u w H. apply in_map_iff in H. destruct H as [x [E H]]. injection E as <- <-. rewrite Forall_forall in F. exact (F x H). Qed.
Lemma fo_step (e : env) a T l T' : step_events e a T = (l, T') -> flagtr l.
Proof.
  destruct a; cbn [step_events].
  1: destruct (main_events T) as [l0 T0] eqn:E; intros H; injection H as <- <-; apply fo_thread; exact (fo_main T l0 T0 E).
  all: intros H; apply (f_equal fst) in H; cbn [fst] in H; rewrite <- H; apply fo_thread; first [apply fo_worker | unfold running, timeout_events; fo].
Qed.
Lemma fo_trun (e : env) acts : forall T l T', trun e acts T = Some (l, T') -> flagtr l.
Proof.
  induction acts as [|a acts IH]; intros T l T' H; cbn in H.
  - injection H as <- <-. intros t w [].
  - destruct (pstep e a (t_st T)) as [s'|]; [|discriminate].
    destruct (step_events e a T) as [l0 T0] eqn:E. destruct (trun e acts (with_st s' T0)) as [[l1 T1]|] eqn:R; [|discriminate].
    injection H as <- <-. intros t w Hi. apply in_app_or in Hi. destruct Hi as [Hi|Hi].
    + exact (fo_step e a T l0 T0 E t w Hi).
    + exact (IH _ _ _ R t w Hi).
Qed.
Lemma pr_flag (e : env) c g pp tr s k i j : par_trace e c g pp tr s -> race_on tr (LFlag k) i j ->
  exists p t, (p = i \/ p = j) /\ nth_error tr p = Some (t, Acc Wr (LFlag k)).
Proof.
  intros [acts [l [T [Ht [Etr Es]]]]] [Hij [t [u [a [b [Ha [Hb [Htu [Hc _]]]]]]]]].
  assert (F : flagtr tr).
  { subst tr. intros v w Hi. apply in_app_or in Hi. destruct Hi as [Hi|Hi]; [|exact (fo_trun e acts _ _ _ Ht v w Hi)].
    revert Hi. apply fo_thread. apply Forall_forall. intros x Hx. apply in_app_or in Hx. destruct Hx as [Hx|Hx].
    { cbn in Hx. repeat (destruct Hx as [<- | Hx]; [exact I|]). destruct Hx. }
    apply in_app_or in Hx. destruct Hx as [Hx|Hx]. { apply in_map_iff in Hx. destruct Hx as [? [<- _]]. exact I. }
    destruct Hx as [<- | Hx]; [exact I|]. destruct (zx_alone_unsupported e c); [destruct Hx as [<- | []]; exact I|destruct Hx]. }
  pose proof (F _ _ (nth_error_In _ _ Ha)) as Fa. pose proof (F _ _ (nth_error_In _ _ Hb)) as Fb.
  destruct a; [destruct Fa | exists i, t; auto | | ]; (destruct b; [destruct Fb | exists j, u; auto | discriminate Hc | discriminate Hc]).
Qed.
End Flags.
