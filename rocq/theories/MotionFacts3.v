(** * MotionFacts3: moved shapes answer moved rays *)
From Coq Require Import Reals List Bool ZArith Lra Lia.
Import ListNotations.
From Verif Require Import XR XRFacts Arr Lin LinFacts Ops Prim Csg CsgProps Surf World Tracer SpecTrace SpecOptics SpecMotion MotionFacts MotionFacts2.
Open Scope R_scope.

Ltac xcase := repeat match goal with
  | |- context [rleb ?a ?b] => destruct (rleb a b) eqn:?
  | H : rleb _ _ = true |- _ => apply rleb_true in H
  | H : rleb _ _ = false |- _ => apply rleb_false in H
  end.
Lemma xmax_comm : forall a b, xmax a b = xmax b a.
Proof. intros [x| | |] [y| | |]; try reflexivity. unfold xmax, xleb. xcase; try reflexivity; f_equal; lra. Qed.
Lemma xmin_comm : forall a b, xmin a b = xmin b a.
Proof. intros [x| | |] [y| | |]; try reflexivity. unfold xmin, xleb. xcase; try reflexivity; f_equal; lra. Qed.
Lemma xmax_assoc : forall a b c, xmax (xmax a b) c = xmax a (xmax b c).
Proof.
  intros [x| | |] [y| | |] [z| | |]; try reflexivity; try (unfold xmax, xleb; xcase; reflexivity).
  rewrite !xmax_fin. f_equal. symmetry. apply Rmax_assoc.
Qed.
Lemma xmin_assoc : forall a b c, xmin (xmin a b) c = xmin a (xmin b c).
Proof.
  intros [x| | |] [y| | |] [z| | |]; try reflexivity; try (unfold xmin, xleb; xcase; reflexivity).
  rewrite !xmin_fin. f_equal. symmetry. apply Rmin_assoc.
Qed.
Lemma sort2_swap : forall a b, sort2 (a, b) = sort2 (b, a).
Proof.
  intros [x| | |] [y| | |]; try reflexivity. unfold sort2, xsle, xleb, fst, snd. xcase; try reflexivity; try (repeat f_equal; lra).
Qed.

Lemma isclose_opp0 : forall d, isclose (- d) 0 = isclose d 0.
Proof. intro d. unfold isclose. rewrite !Rminus_0_r, Rabs_Ropp. reflexivity. Qed.
Lemma isclose_false_nonzero : forall d, isclose d 0 = false -> d <> 0.
Proof.
  intros d H E. subst. unfold isclose in H. apply rleb_false in H. rewrite Rminus_0_r, Rabs_R0 in H. unfold atol, rtol in H. lra.
Qed.
Lemma inf_sign_opp2 : forall y, inf_sign (- - y) = inf_sign y.
Proof. intro y. f_equal. ring. Qed.

Lemma side_hits : forall k t a a' o d, carried_side k t a a' ->
  cube_axis_hits a' (k * o + t) (k * d) = cube_axis_hits a o d.
Proof.
  intros k t [lo hi] a' o d [[-> ->]|[-> ->]]; cbn [fst snd]; unfold cube_axis_hits.
  - replace (1 * d) with d by ring. replace (1 * o + t) with (o + t) by ring.
    destruct (isclose d 0) eqn:Z; cbn [negb].
    + f_equal. f_equal. destruct lo as [lo| | |], hi as [hi| | |]; cbn [xadd xleb]; try reflexivity; xcase; cbn [andb]; try reflexivity; exfalso; lra.
    + assert (E : forall q, xopp (xsub (Fin (o + t)) (xadd q (Fin t))) = xopp (xsub (Fin o) q)).
      { intros [q| | |]; cbn; try reflexivity. f_equal. ring. }
      rewrite !E. reflexivity.
  - replace (-1 * d) with (- d) by ring. rewrite isclose_opp0. replace (-1 * o + t) with (t - o) by ring.
    destruct (isclose d 0) eqn:Z; cbn [negb].
    + f_equal. f_equal. destruct lo as [lo| | |], hi as [hi| | |]; cbn [xadd xsub xopp xleb]; try reflexivity; xcase; cbn [andb]; try reflexivity; exfalso; lra.
    + pose proof (isclose_false_nonzero d Z) as NZ. cbn [b2r]. rewrite !Rplus_0_r.
      assert (E : forall q, xdiv (xopp (xsub (Fin (t - o)) (xsub (Fin t) q))) (Fin (- d)) = xdiv (xopp (xsub (Fin o) q)) (Fin d)).
      { intros [q| | |]; cbn [xopp xsub xadd xdiv]; try reflexivity;
          (destruct (Req_EM_T (- d) 0); [lra|]); (destruct (Req_EM_T d 0); [lra|]).
        - f_equal. field. exact NZ.
        - apply inf_sign_opp2.
        - reflexivity. }
      rewrite !E. apply sort2_swap.
Qed.

Section Boxes.
  Variable m : mat.
  Hypothesis ISO : isometry m.
  Lemma iso_columns :
    vx (row0 m) * vx (row0 m) + vx (row1 m) * vx (row1 m) + vx (row2 m) * vx (row2 m) = 1 /\
    vy (row0 m) * vy (row0 m) + vy (row1 m) * vy (row1 m) + vy (row2 m) * vy (row2 m) = 1 /\
    vz (row0 m) * vz (row0 m) + vz (row1 m) * vz (row1 m) + vz (row2 m) * vz (row2 m) = 1.
  Proof.
    pose proof (iso_affine m ISO) as A. unfold affine in A.
    pose proof (iso_dot m ISO) as H. clear ISO.
    assert (X := H (V4 1 0 0 0) (V4 1 0 0 0) eq_refl eq_refl).
    assert (Y := H (V4 0 1 0 0) (V4 0 1 0 0) eq_refl eq_refl).
    assert (Z := H (V4 0 0 1 0) (V4 0 0 1 0) eq_refl eq_refl). clear H.
    unfold mapply, vdot in X, Y, Z. cbn [vx vy vz vw] in X, Y, Z. rewrite A in X, Y, Z. cbn [vx vy vz vw] in X, Y, Z.
    repeat split; [rewrite <- (Rmult_1_l 1)|rewrite <- (Rmult_1_l 1)|rewrite <- (Rmult_1_l 1)]; nra.
  Qed.

  Lemma coord_moved : forall (row : v4) b a' r, side_of row b a' -> vw (origin r) = 1 -> vw (direction r) = 0 ->
    exists (j : nat),
      ((j = 0%nat /\ vy row = 0 /\ vz row = 0) \/ (j = 1%nat /\ vx row = 0 /\ vz row = 0) \/ (j = 2%nat /\ vx row = 0 /\ vy row = 0)) /\
      cube_axis_hits a' (vdot row (origin r)) (vdot row (direction r)) =
      match j with
      | 0%nat => cube_axis_hits (spanx b) (vx (origin r)) (vx (direction r))
      | 1%nat => cube_axis_hits (spany b) (vy (origin r)) (vy (direction r))
      | _ => cube_axis_hits (spanz b) (vz (origin r)) (vz (direction r))
      end.
  Proof.
    intros row b a' r [(A & B & C)|[(A & B & C)|(A & B & C)]] O D; [exists 0%nat|exists 1%nat|exists 2%nat];
      (split; [tauto|]); rewrite <- (side_hits _ _ _ _ _ _ C); unfold vdot; rewrite A, B, O, D; f_equal; ring.
  Qed.

  Lemma cube_hits_moved : forall b b' r, moved_box m b b' -> vw (origin r) = 1 -> vw (direction r) = 0 ->
    cube_hits b' (ray_map m r) = cube_hits b r.
  Proof.
    intros b b' r (X & Y & Z) O D. symmetry.
    unfold cube_hits, ray_map. cbn [origin direction]. unfold mapply. cbn [vx vy vz].
    destruct (coord_moved _ _ _ r X O D) as (i & CI & ->).
    destruct (coord_moved _ _ _ r Y O D) as (j & CJ & ->).
    destruct (coord_moved _ _ _ r Z O D) as (k & CK & ->).
    destruct iso_columns as (K1 & K2 & K3).
    destruct (cube_axis_hits (spanx b) _ _) as [x0 x1]. destruct (cube_axis_hits (spany b) _ _) as [y0 y1].
    destruct (cube_axis_hits (spanz b) _ _) as [z0 z1].
    assert (MX : forall p q s, xmax (xmax p q) s = xmax (xmax q p) s) by (intros; rewrite (xmax_comm p q); reflexivity).
    assert (MX' : forall p q s, xmax (xmax p q) s = xmax (xmax p s) q) by (intros; rewrite !xmax_assoc, (xmax_comm q s); reflexivity).
    assert (MN : forall p q s, xmin (xmin p q) s = xmin (xmin q p) s) by (intros; rewrite (xmin_comm p q); reflexivity).
    assert (MN' : forall p q s, xmin (xmin p q) s = xmin (xmin p s) q) by (intros; rewrite !xmin_assoc, (xmin_comm q s); reflexivity).
    destruct CI as [(-> & I1 & I2)|[(-> & I1 & I2)|(-> & I1 & I2)]];
    destruct CJ as [(-> & J1 & J2)|[(-> & J1 & J2)|(-> & J1 & J2)]];
    destruct CK as [(-> & L1 & L2)|[(-> & L1 & L2)|(-> & L1 & L2)]];
    try (exfalso; clear - I1 I2 J1 J2 L1 L2 K1 K2 K3;
         repeat match goal with H : _ = 0 |- _ => (rewrite H in K1 || rewrite H in K2 || rewrite H in K3) end; lra).
    - reflexivity.
    - rewrite (MX' x0 z0 y0), (MN' x1 z1 y1). reflexivity.
    - rewrite (MX y0 x0 z0), (MN y1 x1 z1). reflexivity.
    - rewrite (MX' y0 z0 x0), (MX y0 x0 z0), (MN' y1 z1 x1), (MN y1 x1 z1). reflexivity.
    - rewrite (MX z0 x0 y0), (MX' x0 z0 y0), (MN z1 x1 y1), (MN' x1 z1 y1). reflexivity.
    - rewrite (MX z0 y0 x0), (MX' y0 z0 x0), (MX y0 x0 z0), (MN z1 y1 x1), (MN' y1 z1 x1), (MN y1 x1 z1). reflexivity.
  Qed.
  Lemma box_hit_moved : forall b b' r, moved_box m b b' -> vw (origin r) = 1 -> vw (direction r) = 0 ->
    box_hit b' (ray_map m r) = box_hit b r.
  Proof. intros b b' r M O D. unfold box_hit. rewrite (cube_hits_moved b b' r M O D). reflexivity. Qed.
End Boxes.

Lemma shape_rows_moved : forall m s s', moved_shape m s s' -> shape_rows s' = shape_rows s.
Proof. intros m s s' H. induction H; cbn [shape_rows]; congruence. Qed.

Lemma shape_moved : forall asort m, isometry m -> forall s s', moved_shape m s s' ->
  (forall f, In f (surface_ids s) -> is_inverse (s_world f) (s_obj f)) ->
  same_answer asort m s s' /\ Forall2 (alike m) (surface_ids s) (surface_ids s').
Proof.
  intros asort m ISO s s' H. induction H as [s s' b b' M|i i' op b b' l l' r r' B HL IHL HR IHR]; intro INV.
  - assert (I : is_inverse (s_world s) (s_obj s)) by (apply INV; left; reflexivity). split.
    + intros r O D. cbn [shape_intersect]. rewrite (moved_hits m s s' I M). destruct M as (-> & _). reflexivity.
    + cbn [surface_ids]. constructor; [|constructor]. apply (moved_alike m ISO s s' I M).
  - destruct IHL as [AL SL]; [intros; apply INV; cbn [surface_ids]; apply in_or_app; auto|].
    destruct IHR as [AR SR]; [intros; apply INV; cbn [surface_ids]; apply in_or_app; auto|]. split.
    + intros q O D. cbn [shape_intersect]. rewrite (box_hit_moved m ISO b b' q B O D).
      rewrite (AL q O D), (AR q O D). cbn [shape_rows]. rewrite (shape_rows_moved m l l' HL), (shape_rows_moved m r r' HR). reflexivity.
    + cbn [surface_ids]. apply Forall2_app; auto.
Qed.
