(** The queue is free of data races: every location is guarded, at any time, by a mutex or by one thread. *)
From Coq Require Import List Bool Arith Lia.
From Verif Require Import Queue QueueSpec QueueProofs QueueProofs2 QueueProofs3 QueueProofs4 Trace TraceProofs QueueTrace.
Import ListNotations.

(** *** guards, in general *)
Section Guard.
Context {L : Type}.
Implicit Types (tr : trace L) (own : nat -> option nat).
Inductive gd := GThread (t : nat) | GMutex (m : nat).
Definition held own (g : gd) (t : nat) : Prop := match g with GThread u => u = t | GMutex m => own m = Some t end.
Definition kn tr own (g : gd) (p : nat) : Prop :=
  match g with
  | GThread t => known (clk tr) t p = true
  | GMutex m => match own m with Some t => known (clk tr) t p = true | None => released (clk tr) m p = true end
  end.
(** positions before [B] are known to all threads up to [n]; later ones to the guards of what they access *)
Record J (B n : nat) tr own (G : L -> gd -> Prop) : Prop := mkJ {
  j_free : race_free tr;
  j_len : B <= length tr;
  j_base : forall t p, t <= n -> p < B -> known (clk tr) t p = true;
  j_guard : forall l g p t a, G l g -> B <= p -> nth_error tr p = Some (t, Acc a l) -> kn tr own g p }.

Lemma kn_held tr own g t p : held own g t -> kn tr own g p -> known (clk tr) t p = true.
Proof. destruct g as [u|m]; cbn; [intros ->; auto|]. intros ->. auto. Qed.
Lemma kn_held_r tr own g t p : held own g t -> known (clk tr) t p = true -> kn tr own g p.
Proof. destruct g as [u|m]; cbn; [intros ->; auto|]. intros ->. auto. Qed.
Lemma kn_mono tr own g p e : kn tr own g p -> kn (tr ++ [e]) own g p.
Proof. destruct g as [u|m]; cbn; [apply known_mono|]. destruct (own m); [apply known_mono|apply released_mono]. Qed.
Lemma known_new tr t w : known (clk (tr ++ [(t, w)])) t (length tr) = true.
Proof. rewrite clk_snoc. cbn. rewrite Nat.eqb_refl, clk_len, Nat.eqb_refl. destruct (known _ _ _); reflexivity. Qed.

Lemma J_acc B n tr own G t a l : J B n tr own G -> t <= n -> (exists g, G l g) -> (forall g, G l g -> held own g t) -> J B n (tr ++ [(t, Acc a l)]) own G.
Proof.
  intros [F LN BS GD] HT [g0 H0] HH. constructor.
  - intros l' i j H. apply race_on_snoc in H. destruct H as [H|(-> & Hi & u & x & y & E1 & E2 & _ & _ & HK)]; [exact (F l' i j H)|].
    cbn in E2, HK. injection E2 as _ <-. assert (K : known (clk tr) t i = true); [|congruence].
    destruct (Nat.lt_ge_cases i B) as [Hl|Hl]; [apply BS; assumption|]. apply (kn_held tr own g0); [apply HH, H0|]. exact (GD l g0 i u x H0 Hl E1).
  - rewrite app_length. cbn. lia.
  - intros u p Hu Hp. apply known_mono, BS; assumption.
  - intros l' g p u x HG HB E. destruct (Nat.eq_dec p (length tr)) as [->|Hn].
    + rewrite nth_snoc_new in E. injection E as <- <- <-. apply (kn_held_r _ own g t); [apply HH, HG|]. apply known_new.
    + apply kn_mono. rewrite nth_error_app1 in E; [exact (GD l' g p u x HG HB E)|].
      assert (p < length (tr ++ [(t, Acc a l)])) by (apply nth_error_Some; congruence). rewrite app_length in H. cbn in H. lia.
Qed.
Lemma race_free_snoc tr t w : race_free tr -> (forall a l, w <> Acc a l) -> race_free (tr ++ [(t, w)]).
Proof.
  intros F HW l i j H. apply race_on_snoc in H. destruct H as [H|(-> & Hi & u & x & y & E1 & E2 & _)]; [exact (F l i j H)|].
  cbn in E2. injection E2 as E2. exact (HW y l E2).
Qed.
Lemma nth_snoc_acc tr t w p u a l : (forall a l, w <> Acc a l) -> nth_error (tr ++ [(t, w)]) p = Some (u, Acc a l) -> nth_error tr p = Some (u, Acc a l).
Proof.
  intros HW E. destruct (Nat.lt_ge_cases p (length tr)) as [Hl|Hl]; [rewrite nth_error_app1 in E by exact Hl; exact E|].
  rewrite nth_error_app2 in E by exact Hl. destruct (p - length tr) as [|q]; cbn in E; [|destruct q; discriminate]. injection E as _ E. exfalso. exact (HW a l E).
Qed.
Definition set_own own (m : nat) (x : option nat) : nat -> option nat := fun i => if i =? m then x else own i.
Lemma J_lock B n tr own own' G t m : J B n tr own G -> own m = None -> (forall i, own' i = set_own own m (Some t) i) -> J B n (tr ++ [(t, Lock m)]) own' G.
Proof.
  intros [F LN BS GD] HM EO. constructor.
  - apply race_free_snoc; [exact F|discriminate].
  - rewrite app_length. lia.
  - intros u p Hu Hp. apply known_mono, BS; assumption.
  - intros l g p u a HG HB E. apply nth_snoc_acc in E; [|discriminate]. specialize (GD l g p u a HG HB E).
    destruct g as [v|k]; [apply (kn_mono tr own (GThread v)); exact GD|]. cbn in *. rewrite EO. unfold set_own. destruct (Nat.eqb_spec k m) as [->|Hk].
    + rewrite HM in GD. rewrite clk_snoc. cbn. rewrite Nat.eqb_refl, GD, !orb_true_r. reflexivity.
    + exact (kn_mono tr own (GMutex k) p _ GD).
Qed.
Lemma J_unlock B n tr own own' G t m : J B n tr own G -> own m = Some t -> (forall i, own' i = set_own own m None i) -> J B n (tr ++ [(t, Unlock m)]) own' G.
Proof.
  intros [F LN BS GD] HM EO. constructor.
  - apply race_free_snoc; [exact F|discriminate].
  - rewrite app_length. lia.
  - intros u p Hu Hp. apply known_mono, BS; assumption.
  - intros l g p u a HG HB E. apply nth_snoc_acc in E; [|discriminate]. specialize (GD l g p u a HG HB E).
    destruct g as [v|k]; [apply (kn_mono tr own (GThread v)); exact GD|]. cbn in *. rewrite EO. unfold set_own. destruct (Nat.eqb_spec k m) as [->|Hk].
    + rewrite HM in GD. rewrite clk_snoc. cbn. rewrite Nat.eqb_refl, GD. cbn. apply orb_true_r.
    + exact (kn_mono tr own (GMutex k) p _ GD).
Qed.
Definition unseen (B : nat) tr (l : L) : Prop := forall p t a, B <= p -> nth_error tr p <> Some (t, Acc a l).
Lemma J_guards B n tr own (G G' : L -> gd -> Prop) : J B n tr own G ->
  (forall l g, G' l g -> G l g \/ unseen B tr l \/ exists g0 t, G l g0 /\ held own g0 t /\ held own g t) -> J B n tr own G'.
Proof.
  intros [F LN BS GD] H. constructor; auto. intros l g p t a HG HB E.
  destruct (H l g HG) as [H1|[H1|(g0 & u & H1 & H2 & H3)]]; [exact (GD l g p t a H1 HB E)|exfalso; exact (H1 p t a HB E)|].
  apply (kn_held_r tr own g u p H3). apply (kn_held tr own g0 u p H2). exact (GD l g0 p t a H1 HB E).
Qed.
Lemma J_own B n tr own own' G : J B n tr own G -> (forall i, own' i = own i) -> J B n tr own' G.
Proof.
  intros [F LN BS GD] H. constructor; auto. intros l g p t a HG HB E. specialize (GD l g p t a HG HB E). destruct g; cbn in *; [exact GD|]. rewrite H. exact GD.
Qed.
End Guard.
