From Coq Require Import List Bool Arith Lia Sorting.Sorted.
From Verif Require Import Perm PermSpec PermProofs Prep PrepSpec PrepProofs.
Import ListNotations.

(* maps with the same entries are equal *)
Lemma map_ext m m' : is_map m -> is_map m' -> (forall k, qfind k m = qfind k m') -> m = m'.
Proof.
  revert m'. induction m as [|[i v] m IH]; intros [|[j w] m'] M M' E; auto.
  - specialize (E j). cbn in E. rewrite Nat.eqb_refl in E. discriminate.
  - specialize (E i). cbn in E. rewrite Nat.eqb_refl in E. discriminate.
  - assert (X : forall m i, is_map m -> Forall (lt i) (map fst m) -> qfind i m = None).
    { intros q k Q F. destruct (qfind k q) as [x|] eqn:Y; auto. apply maps_in in Y; auto. apply (in_map fst) in Y. rewrite Forall_forall in F. apply F in Y. cbn in Y. lia. }
    pose proof M as M0. pose proof M' as M0'. apply is_map_cons in M as [M F], M' as [M' F'].
    assert (i = j) as ->.
    { pose proof (E i) as Ei. pose proof (E j) as Ej. cbn in Ei, Ej. rewrite Nat.eqb_refl in Ei, Ej.
      destruct (Nat.eqb_spec j i) as [|N]; auto. destruct (Nat.eqb_spec i j) as [|N']; auto.
      symmetry in Ei. apply maps_in in Ei; auto. apply maps_in in Ej; auto. apply (in_map fst) in Ei, Ej. rewrite Forall_forall in F, F'. apply F' in Ei. apply F in Ej. cbn in *. lia. }
    pose proof (E j) as Ej. cbn in Ej. rewrite Nat.eqb_refl in Ej. injection Ej as ->. f_equal. apply IH; auto.
    intros k. specialize (E k). cbn in E. destruct (Nat.eqb_spec j k) as [Q|N]; auto. subst k. rewrite !X; auto.
Qed.
Lemma qfind_qinsert k v m k' : qfind k' (qinsert k v m) = match qfind k' m with Some w => Some w | None => if k =? k' then Some v else None end.
Proof.
  unfold qinsert. destruct (qfind k m) as [w|] eqn:E.
  - destruct (qfind k' m) as [x|] eqn:E'; auto. destruct (Nat.eqb_spec k k'); congruence.
  - rewrite qfind_qset. destruct (Nat.eqb_spec k k') as [->|N]; [now rewrite E|]. now destruct (qfind k' m).
Qed.
Lemma is_map_qinsert k v m : is_map m -> is_map (qinsert k v m).
Proof. unfold qinsert. intros M. destruct (qfind k m); auto. now apply is_map_qset. Qed.
Section Setup.
Context {A : Type} (actsOn : A -> nat -> bool).
Notation circ := (circ A).
Notation wf := (@wf_circ A).

Definition wfl (c : circ) : Prop := is_map (q_lay c) /\ injective_map (q_lay c) /\ (forall v, values (q_lay c) v <-> v < q_n c) /\ is_map (q_out c).
Lemma addBack_app (rs rs' : list (nat * option nat * bool)) (L Sm : circ) :
  addBack (rs ++ rs') L Sm = match addBack rs L Sm with Some (L1, S1) => addBack rs' L1 S1 | None => None end.
Proof.
  revert L Sm. induction rs as [|[[p o] g] rs IH]; intros L Sm; cbn [addBack app]; auto. destruct (addAncillaryQubit p o L); auto.
Qed.
Lemma setGarbage_out l (c : circ) : is_map (q_out c) -> is_map (q_out (setGarbage l c)) /\
  (forall p v, maps (q_out (setGarbage l c)) p v -> maps (q_out c) p v) /\ (forall p v, v <> l -> maps (q_out c) p v -> maps (q_out (setGarbage l c)) p v).
Proof.
  intros M. cbn [setGarbage q_out]. destruct (qkey l (q_out c)) as [k|] eqn:E; [|auto]. apply qkey_some in E; auto. split; [now apply is_map_qerase|].
  unfold maps in *. split; intros p v.
  - rewrite qfind_qerase. destruct (k =? p); [discriminate|auto].
  - intros N H. rewrite qfind_qerase. destruct (Nat.eqb_spec k p); congruence.
Qed.

Lemma remove_top (L : circ) p l : wfl L -> S l = q_n L -> maps (q_lay L) p l ->
  let L1 := removed L p l in removeQubit L l = Some (L1, (p, qfind p (q_out L))) /\ wfl L1 /\ q_n L1 = l /\ (forall p' v, maps (q_lay L1) p' v <-> maps (q_lay L) p' v /\ v <> l).
Proof.
  intros (ML & IL & VL & MO) En M L1.
  assert (CL : forall p' v, maps (q_lay L1) p' v <-> maps (q_lay L) p' v /\ v <> l).
  { intros p' v. unfold maps. change (q_lay L1) with (qerase p (q_lay L)). rewrite qfind_qerase. destruct (Nat.eqb_spec p p') as [<-|N].
    - split; [discriminate|]. unfold maps in M. intros [X Y]. congruence.
    - split; [|tauto]. intros X. split; auto. intros ->. apply N. eapply IL; eauto. }
  split; [unfold removeQubit; now rewrite (qkey_maps l (q_lay L) p ML IL M)|]. split; [|split; [cbn; lia|exact CL]].
  split; [now apply is_map_qerase|]. split; [|split; [|now apply is_map_qerase]].
  - intros k k' v X Y. apply CL in X as [X _], Y as [Y _]. eapply IL; eauto.
  - intros v. change (q_n L1) with (q_n L - 1). split.
    + intros (k & X). apply CL in X as [X N]. assert (v < q_n L) by (apply VL; now exists k). lia.
    + intros X. destruct (proj2 (VL v)) as (k & K); [lia|]. exists k. apply CL. split; auto. lia.
Qed.

Lemma roundtrip k : forall (L Sm : circ), wfl L -> k <= q_n L ->
  exists L' rs L2 S2, (forall acc, removeTop k L acc = Some (L', rs ++ acc)) /\ addBack rs L' Sm = Some (L2, S2) /\
    S2 = fold_left (fun c j => setGarbage j c) (seq (q_n L - k) k) Sm /\ restored (q_n L - k) L L2.
Proof.
  induction k as [|k IH]; intros L Sm W Le.
  - exists L, [], L, Sm. split; [reflexivity|]. split; [reflexivity|]. split; [reflexivity|].
    do 4 (split; [try reflexivity; apply W|]). do 3 (split; [auto|]). intros p q M X. exfalso.
    assert (q < q_n L) by (apply W; now exists p). lia.
  - pose proof W as (ML & IL & VL & MO). set (l := q_n L - 1). assert (Sl : S l = q_n L) by (unfold l; lia).
    destruct (proj2 (VL l)) as (p & M); [lia|].
    destruct (remove_top L p l W Sl M) as (ER & W1 & N1 & CL). cbn zeta in *. set (L1 := removed L p l) in *.
    destruct (IH L1 Sm W1 ltac:(lia)) as (L' & rs & L2 & S2 & R & B & ES & Rs).
    assert (Eb : q_n L1 - k = q_n L - S k) by lia. rewrite Eb in *. set (b := q_n L - S k) in *.
    destruct Rs as (R1 & R2 & R3 & R4 & R5 & R6 & R7 & R8).
    assert (P1 : qfind p (q_lay L1) = None). { change (q_lay L1) with (qerase p (q_lay L)). now rewrite qfind_qerase, Nat.eqb_refl. }
    assert (O1 : forall x, qfind x (q_out L1) = if p =? x then None else qfind x (q_out L)). { intros x. change (q_out L1) with (qerase p (q_out L)). apply qfind_qerase. }
    assert (P2 : qfind p (q_out L2) = None).
    { destruct (qfind p (q_out L2)) as [x|] eqn:X; auto. apply R5 in X. unfold maps in X. rewrite O1, Nat.eqb_refl in X. discriminate. }
    set (o := qfind p (q_out L)) in *. set (g := q_gar L l).
    set (L3 := mkCirc (q_ops L2) (S (q_n L2)) (qinsert p (q_n L2) (q_lay L2)) (match o with Some v => qinsert p v (q_out L2) | None => q_out L2 end)
                         (fun i => if i =? q_n L2 then true else q_anc L2 i)
                         (fun i => if i =? q_n L2 then match o with Some _ => false | None => true end else q_gar L2 i)).
    assert (EA : addAncillaryQubit p o L2 = Some L3). { unfold addAncillaryQubit. assert (P1' : qfind p (q_lay L2) = None) by (rewrite R3; exact P1). now rewrite P1', P2. }
    assert (N2 : q_n L2 = l) by congruence.
    set (L4 := if g then setGarbage l L3 else L3).
    exists L', (rs ++ [(p, o, g)]), L4, (setGarbage l S2). split; [|split; [|split]].
    + intros acc. cbn [removeTop]. rewrite (maxValue_spec (q_lay L) (q_n L)) by (auto; lia). fold l. rewrite ER. fold o g. rewrite R, <- app_assoc. reflexivity.
    + rewrite addBack_app, B. cbn [addBack]. rewrite EA. replace (q_n L3 - 1) with l by (cbn; lia). fold L4.
      replace (q_n L4 - 1) with l; [reflexivity|]. unfold L4. destruct g; cbn; lia.
    + subst S2. rewrite seq_S, fold_left_app. cbn [fold_left]. replace (b + k) with l by lia. reflexivity.
    + assert (O3 : is_map (q_out L3) /\ (forall x v, maps (q_out L3) x v -> maps (q_out L) x v) /\
                   (forall x v, maps (q_out L) x v -> v < b \/ v = l \/ q_gar L v = false -> v < b \/ q_gar L1 v = false \/ p = x -> maps (q_out L3) x v)).
      { split; [|split].
        - cbn [L3 q_out]. destruct o; auto. now apply is_map_qinsert.
        - intros x v. cbn [L3 q_out]. intros X. unfold maps in *. destruct o as [w|] eqn:Eo.
          + rewrite qfind_qinsert in X. destruct (qfind x (q_out L2)) as [y|] eqn:Y.
            * injection X as ->. apply R5 in Y. unfold maps in Y. rewrite O1 in Y. destruct (p =? x); [discriminate|auto].
            * destruct (Nat.eqb_spec p x) as [<-|N]; [|discriminate]. injection X as ->. exact Eo.
          + apply R5 in X. unfold maps in X. rewrite O1 in X. destruct (p =? x); [discriminate|auto].
        - intros x v X _ Y. cbn [L3 q_out]. unfold maps in *. destruct (Nat.eqb_spec p x) as [<-|N].
          + assert (Eo : o = Some v) by exact X. rewrite Eo, qfind_qinsert, P2, Nat.eqb_refl. reflexivity.
          + assert (Z : qfind x (q_out L2) = Some v). { apply R6; [|tauto]. unfold maps. rewrite O1. destruct (Nat.eqb_spec p x); congruence. }
            destruct o; auto. rewrite qfind_qinsert, Z. reflexivity. }
      assert (G1 : forall q, q < l -> q_gar L1 q = q_gar L q /\ q_anc L1 q = q_anc L q).
      { intros q X. cbn. unfold shift. destruct (Nat.ltb_spec q l); [auto|lia]. }
      assert (G1' : forall v, q_gar L v = false \/ v = l -> v <= l -> q_gar L1 v = false).
      { intros v [X|X] Lv; cbn; unfold shift; destruct (Nat.ltb_spec v l); auto; destruct (Nat.ltb_spec (S v) (q_n L)); auto; lia. }
      destruct O3 as (O3a & O3b & O3c). destruct (setGarbage_out l L3 O3a) as (S1 & S2' & S3).
      unfold restored. split; [unfold L4; destruct g; exact R1|]. split; [unfold L4; destruct g; cbn; lia|].
      split.
      { assert (X : q_lay L4 = q_lay L3) by (unfold L4; now destruct g). rewrite X. cbn [L3 q_lay]. rewrite R3, N2. apply map_ext; auto.
        - apply is_map_qinsert, W1.
        - intros x. rewrite qfind_qinsert. change (q_lay L1) with (qerase p (q_lay L)). rewrite qfind_qerase. destruct (Nat.eqb_spec p x) as [<-|N]; [symmetry; exact M|].
          now destruct (qfind x (q_lay L)). }
      split; [unfold L4; destruct g; auto|]. split; [|split; [|split]].
      * intros x v X. unfold L4 in X. destruct g; [apply S2' in X|]; now apply O3b.
      * intros x v X Y. 
        assert (Z : maps (q_out L3) x v).
        { apply O3c; auto; [tauto|]. destruct Y as [Y|Y]; [now left|right]. destruct (Nat.le_gt_cases v l) as [Lv|Lv]; [left; apply G1'; auto|].
          left. cbn. unfold shift. destruct (Nat.ltb_spec v l); [lia|]. destruct (Nat.ltb_spec (S v) (q_n L)); [lia|auto]. }
        unfold L4. destruct g eqn:Eg; auto. apply S3; auto. intros ->. destruct Y as [Y|Y]; [lia|]. unfold g in Eg. congruence.
      * intros q X. destruct (R7 q X) as [X1 X2]. destruct (G1 q) as [Y1 Y2]; [lia|].
        assert (Nq : q <> l) by lia. rewrite <- Y1, <- Y2, <- X1, <- X2. unfold L4. destruct g; cbn; rewrite N2; destruct (Nat.eqb_spec q l); auto; lia.
      * intros x q Mx Lb. destruct (Nat.eq_dec q l) as [->|Nq].
        -- assert (x = p) as -> by (eapply IL; eauto). unfold L4. fold o g. destruct g eqn:Eg; unfold g in Eg; cbn; rewrite ?N2, Nat.eqb_refl; auto.
        -- destruct (R8 x q) as [X1 X2]; [now apply CL|auto|]. assert (q < q_n L) by (apply VL; now exists x). destruct (G1 q) as [Y1 Y2]; [lia|].
           assert (Nx : p <> x) by (intros ->; apply Nq; eapply maps_fun; eauto).
           rewrite O1 in X2. destruct (Nat.eqb_spec p x); [congruence|]. rewrite Y1 in X2. rewrite <- X2, <- X1.
           unfold L4. destruct g; cbn; rewrite N2; destruct (Nat.eqb_spec q l); auto; lia.
Qed.

Lemma filled_step b e m m' : b <= e -> filled b e m m' -> filled b (S e) m (qinsert e e m').
Proof.
  intros Le (M & F). split; [now apply is_map_qinsert|]. intros x. rewrite qfind_qinsert, F. destruct (qfind x m); auto.
  destruct (Nat.leb_spec b x), (Nat.ltb_spec x e), (Nat.ltb_spec x (S e)), (Nat.eqb_spec e x); cbn; auto; try lia; subst; auto.
Qed.
Lemma register_gen k b (c : circ) : is_map (q_lay c) -> is_map (q_out c) -> let c' := fold_left (fun c j => mkCirc (q_ops c) (S (q_n c)) (qinsert j j (q_lay c)) (qinsert j j (q_out c))
                          (fun i => if i =? j then true else q_anc c i) (fun i => if i =? j then false else q_gar c i)) (seq b k) c in
  q_ops c' = q_ops c /\ q_n c' = q_n c + k /\ filled b (b + k) (q_lay c) (q_lay c') /\ filled b (b + k) (q_out c) (q_out c') /\
  (forall q, q_anc c' q = if (b <=? q) && (q <? b + k) then true else q_anc c q) /\ (forall q, q_gar c' q = if (b <=? q) && (q <? b + k) then false else q_gar c q).
Proof.
  intros ML MO. induction k as [|k IH].
  - cbn zeta. cbn [seq fold_left]. rewrite !Nat.add_0_r.
    assert (X : forall x (T : Type) (a c : T), (if (b <=? x) && (x <? b) then a else c) = c) by (intros x T a d; destruct (Nat.leb_spec b x), (Nat.ltb_spec x b); auto; lia).
    split; [auto|]. split; [auto|]. unfold filled. repeat split; auto; intros x; rewrite X; auto; [now destruct (qfind x (q_lay c))|now destruct (qfind x (q_out c))].
  - cbn zeta in *. rewrite seq_S, fold_left_app. destruct IH as (I1 & I2 & I3 & I4 & I5 & I6). set (c1 := fold_left _ (seq b k) c) in *. cbn [fold_left q_ops q_n q_lay q_out q_anc q_gar].
    rewrite !(Nat.add_succ_r _ k). split; [auto|]. split; [now rewrite I2|]. split; [apply filled_step; auto; lia|]. split; [apply filled_step; auto; lia|].
    split; intros q; rewrite ?I5, ?I6; destruct (Nat.eqb_spec q (b + k)), (Nat.leb_spec b q), (Nat.ltb_spec q (b + k)), (Nat.ltb_spec q (S (b + k))); cbn; auto; lia.
Qed.
Lemma garbage_gen i b e (m : qmap) (c : circ) : is_map m -> (forall v, values m v -> v < b) -> b + i <= e -> filled b e m (q_out c) ->
  let c' := fold_left (fun c j => setGarbage j c) (seq b i) c in
  q_ops c' = q_ops c /\ q_n c' = q_n c /\ q_lay c' = q_lay c /\ filled (b + i) e m (q_out c') /\ q_anc c' = q_anc c /\
  (forall q, q_gar c' q = if (b <=? q) && (q <? b + i) then true else q_gar c q).
Proof.
  intros Mm V Le F. induction i as [|i IH].
  - cbn zeta. cbn [seq fold_left]. rewrite !Nat.add_0_r. do 3 (split; [auto|]). split; [auto|]. split; [auto|].
    intros x. destruct (Nat.leb_spec b x), (Nat.ltb_spec x b); auto; lia.
  - cbn zeta in *. rewrite seq_S, fold_left_app. destruct IH as (I1 & I2 & I3 & I4 & I5 & I6); [lia|]. set (c1 := fold_left _ (seq b i) c) in *. cbn [fold_left setGarbage q_ops q_n q_lay q_anc q_gar].
    do 3 (split; [auto|]). split; [|split; [auto|]].
    + destruct I4 as (M1 & F1). cbn [setGarbage q_out]. split.
      * destruct (qkey (b + i) (q_out c1)); auto. now apply is_map_qerase.
      * intros x. destruct (qkey (b + i) (q_out c1)) as [k|] eqn:Ek.
        -- apply qkey_some in Ek; auto. unfold maps in Ek. rewrite F1 in Ek. destruct (qfind k m) as [w|] eqn:Ew.
           { injection Ek as ->. assert (b + i < b) by (apply V; now exists k). lia. }
           destruct (Nat.leb_spec (b + i) k), (Nat.ltb_spec k e); cbn in Ek; try discriminate. injection Ek as ->.
           rewrite qfind_qerase, F1. destruct (Nat.eqb_spec (b + i) x) as [<-|N].
           ++ rewrite Ew. destruct (Nat.leb_spec (b + S i) (b + i)); auto; lia.
           ++ destruct (qfind x m); auto. destruct (Nat.leb_spec (b + i) x), (Nat.leb_spec (b + S i) x); cbn; auto; lia.
        -- assert (Nv : forall x, qfind x (q_out c1) <> Some (b + i)). { intros y X. eapply qkey_none; eauto. now exists y. }
           rewrite F1. specialize (Nv x). rewrite F1 in Nv. destruct (qfind x m); auto.
           destruct (Nat.leb_spec (b + i) x), (Nat.leb_spec (b + S i) x), (Nat.ltb_spec x e); cbn in *; auto; try lia. exfalso. apply Nv. f_equal. lia.
    + intros q. rewrite I6. destruct (Nat.eqb_spec q (b + i)), (Nat.leb_spec b q), (Nat.ltb_spec q (b + i)), (Nat.ltb_spec q (b + S i)); cbn; auto; lia.
Qed.
Lemma setup_main (L Sm : circ) : wf L -> wf Sm -> q_n Sm <= q_n L ->
  exists L2 S2, setupAncillariesAndGarbage L Sm = PVal (L2, S2) /\ restored (q_n Sm) L L2 /\ padded (q_n L) Sm S2.
Proof.
  intros (ML & IL & VL & MO & _) (MLS & _ & _ & MOS & _ & VOS & _) Le. set (k := q_n L - q_n Sm).
  destruct (roundtrip k L (addAncillaryRegister k Sm)) as (L' & rs & L2 & S2 & R & B & ES & Rs); [repeat split; auto; apply VL|unfold k; lia|].
  exists L2, S2. unfold setupAncillariesAndGarbage. fold k. rewrite R, app_nil_r, B. split; [reflexivity|].
  replace (q_n L - k) with (q_n Sm) in * by (unfold k; lia). split; [exact Rs|].
  destruct (register_gen k (q_n Sm) Sm MLS MOS) as (G1 & G2 & G3 & G4 & G5 & G6). cbn zeta in *. fold (addAncillaryRegister k Sm) in G1, G2, G3, G4, G5, G6.
  destruct (garbage_gen k (q_n Sm) (q_n Sm + k) (q_out Sm) (addAncillaryRegister k Sm) MOS VOS (le_n _) G4) as (H1 & H2 & H3 & H4 & H5 & H6). cbn zeta in *. rewrite <- ES in *.
  assert (E : q_n Sm + k = q_n L) by (unfold k; lia). rewrite E in *.
  split; [congruence|]. split; [congruence|]. split; [now rewrite H3|]. split.
  - apply map_ext; auto; [apply H4|]. intros x. destruct H4 as (_ & H4). rewrite H4. destruct (qfind x (q_out Sm)); auto. destruct (Nat.leb_spec (q_n L) x), (Nat.ltb_spec x (q_n L)); auto; lia.
  - rewrite H5. split; intros q X; rewrite G5, H6, ?G6; destruct (Nat.leb_spec (q_n Sm) q), (Nat.ltb_spec q (q_n L)); cbn; auto; lia.
Qed.
End Setup.
