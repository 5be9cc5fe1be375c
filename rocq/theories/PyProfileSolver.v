(** A concrete solver of linear systems for the examples on profiles: Cramer's rule for up to three unknowns (np.linalg.det, np.linalg.inv and dot in
    compilation_flow_profiles.py:313-319). *)
From Coq Require Import List ZArith QArith Lia Field.
From Verif Require Import PyProfile.
Import ListNotations.

Definition det2 (a b c d : Z) : Z := (a * d - b * c)%Z.
Definition det3 (a b c d e f g h i : Z) : Z := (a * det2 e f h i - b * det2 d f g i + c * det2 d e g h)%Z.
Definition qdiv (a b : Z) : Q := inject_Z a / inject_Z b.
Definition cramer (m : list (list Z)) (f : list Z) : option (list Q) :=
  match m, f with
  | [[a]], [x] => if Z.eqb a 0 then None else Some [qdiv x a]
  | [[a; b]; [c; d]], [x; y] => let t := det2 a b c d in if Z.eqb t 0 then None else Some [qdiv (det2 x b y d) t; qdiv (det2 a x c y) t]
  | [[a; b; c]; [d; e; f]; [g; h; i]], [x; y; z] =>
      let t := det3 a b c d e f g h i in
      if Z.eqb t 0 then None else Some [qdiv (det3 x b c y e f z h i) t; qdiv (det3 a x c d y f g z i) t; qdiv (det3 a b x d e y g h z) t]
  | _, _ => None
  end.

Lemma inj_nz t : Z.eqb t 0 = false -> ~ inject_Z t == 0.
Proof. intros H E. apply Z.eqb_neq in H. apply H. unfold Qeq in E. cbn in E. lia. Qed.
Lemma cramer_ok m f c : cramer m f = Some c -> Forall2 (fun row v => sumprod c row == inject_Z v) m f.
Proof.
  unfold cramer. destruct m as [|[|a [|b [|c0 [|? ?]]]] m]; try discriminate.
  - destruct m; [|discriminate]. destruct f as [|x [|]]; try discriminate. destruct (Z.eqb a 0) eqn:T; [discriminate|]. intros E. injection E as <-. apply inj_nz in T.
    repeat constructor. cbn [sumprod]. unfold qdiv. field. exact T.
  - destruct m as [|[|c1 [|d [|]]] [|]]; try discriminate. destruct f as [|x [|y [|]]]; try discriminate. destruct (Z.eqb (det2 a b c1 d) 0) eqn:T; [discriminate|]. intros E. injection E as <-.
    apply inj_nz in T. unfold qdiv. unfold det2, Z.sub in *. repeat rewrite ?inject_Z_plus, ?inject_Z_mult, ?inject_Z_opp in *.
    repeat constructor; cbn [sumprod]; field; exact T.
  - destruct m as [|[|d [|e [|f0 [|]]]] [|[|g [|h [|i [|]]]] [|]]]; try discriminate. destruct f as [|x [|y [|z [|]]]]; try discriminate.
    destruct (Z.eqb (det3 a b c0 d e f0 g h i) 0) eqn:T; [discriminate|]. intros E. injection E as <-.
    apply inj_nz in T. unfold qdiv. unfold det3, det2, Z.sub in *. repeat rewrite ?inject_Z_plus, ?inject_Z_mult, ?inject_Z_opp in *.
    repeat constructor; cbn [sumprod]; field; exact T.
Qed.
