(** * SymmetryFacts: symmetric surfaces and shapes answer the images of rays alike *)
From Coq Require Import Reals List Bool ZArith Lra Lia.
Import ListNotations.
From Verif Require Import XR XRFacts Arr Lin LinFacts Ops Prim Csg CsgProps Surf World Tracer SpecTrace SpecOptics SpecMotion MotionFacts MotionFacts2 MotionFacts3 SpecSymmetry.
Open Scope R_scope.

(** ** maps that fix the origin *)
Lemma turning_dot : forall g, turning g -> forall u v, vdot (mapply g u) (mapply g v) = vdot u v.
Proof.
  intros g (_ & I & _) u v.
  rewrite <- (mtrans_invol g) at 1. rewrite vdot_mtrans, <- mapply_mmul, I, mapply_mid. reflexivity.
Qed.

Lemma turning_iso : forall g, turning g -> isometry g.
Proof. intros g T. pose proof T as (A & I). split; [exact A|]. split; [eauto|]. intros u v _ _. apply turning_dot; auto. Qed.
Lemma turning_w0 : forall g, turning g -> forall v, vset_w (mapply g v) 0 = mapply g (vset_w v 0).
Proof. intros g T v. pose proof T as (_ & I). rewrite <- (iso_trans_inverse g (turning_iso g T) (mtrans g) v I), mtrans_invol. reflexivity. Qed.
Lemma turning_w : forall g, turning g -> forall v, vw (mapply g v) = vw v.
Proof. intros g (A & _) v. apply affine_w; auto. Qed.
Lemma turning_dot3 : forall g, turning g -> forall u v,
  vx (mapply g u) * vx (mapply g v) + vy (mapply g u) * vy (mapply g v) + vz (mapply g u) * vz (mapply g v) =
  vx u * vx v + vy u * vy v + vz u * vz v.
Proof.
  intros g T u v. pose proof (turning_dot g T u v) as D. pose proof (turning_w g T u) as U. pose proof (turning_w g T v) as V.
  unfold vdot in D. rewrite U, V in D. lra.
Qed.
Lemma about_z_z : forall g, about_z g -> forall v, vz (mapply g v) = vz v.
Proof. intros g (_ & Z) v. unfold mapply; cbn [vz]. rewrite Z. unfold vdot; cbn [vx vy vz vw]. ring. Qed.
Lemma about_z_dot2 : forall g, about_z g -> forall u v,
  vx (mapply g u) * vx (mapply g v) + vy (mapply g u) * vy (mapply g v) = vx u * vx v + vy u * vy v.
Proof.
  intros g Z u v. pose proof (turning_dot3 g (proj1 Z) u v) as D. rewrite !(about_z_z g Z) in D. lra.
Qed.
Lemma about_z_axis : forall g, about_z g -> mapply g (V4 0 0 1 0) = V4 0 0 1 0.
Proof.
  intros g Z. pose proof (about_z_z g Z (V4 0 0 1 0)) as E. pose proof (turning_w g (proj1 Z) (V4 0 0 1 0)) as W.
  pose proof (about_z_dot2 g Z (V4 0 0 1 0) (V4 0 0 1 0)) as D. cbn [vx vy vz vw] in *.
  apply v4_eq; cbn [vx vy vz vw]; auto; nra.
Qed.
Lemma about_z_flat : forall g, about_z g -> forall p z, V4 (vx (mapply g p)) (vy (mapply g p)) z 0 = mapply g (V4 (vx p) (vy p) z 0).
Proof.
  intros g Z p z. assert (E : V4 (vx p) (vy p) z 0 = vadd (vset_w p 0) (vscale (z - vz p) (V4 0 0 1 0))).
  { unfold vadd, vscale, vset_w; cbn [vx vy vz vw]. f_equal; ring. }
  rewrite E, mapply_add, mapply_scale, (about_z_axis g Z), <- (turning_w0 g (proj1 Z)).
  unfold vadd, vscale, vset_w; cbn [vx vy vz vw]. rewrite (about_z_z g Z). f_equal; ring.
Qed.
Lemma mapply_flip : forall a b c v, mapply (flip a b c) v = V4 (a * vx v) (b * vy v) (c * vz v) (vw v).
Proof. intros. unfold mapply, flip, vdot; cbn [row0 row1 row2 row3 vx vy vz vw]. f_equal; ring. Qed.
Lemma sign_sq : forall a, sign a -> a * a = 1.
Proof. intros a [->| ->]; ring. Qed.
Lemma flip_turning : forall a b c, sign a -> sign b -> sign c -> turning (flip a b c).
Proof.
  intros a b c A B C. apply sign_sq in A, B, C. split; [reflexivity|].
  split; unfold flip, mmul, mtrans, mapply, vdot, mid; cbn [row0 row1 row2 row3 vx vy vz vw]; repeat f_equal; lra.
Qed.
Lemma symmetry_turning : forall p g, symmetry_of p g -> turning g.
Proof.
  intros [r|r lo hi cap|[[x0 y0] z0] [[x1 y1] z1]|f h|w l] g S; cbn [symmetry_of] in S.
  - exact S.
  - apply S.
  - destruct S as (a & b & c & A & B & C & -> & _). apply flip_turning; auto.
  - apply S.
  - destruct S as (a & b & A & B & ->). apply flip_turning; auto. left; reflexivity.
Qed.

(** ** primitives *)
Lemma plane_axis_flip : forall a w o d, sign a -> plane_axis_hits w (a * o) (a * d) = plane_axis_hits w o d.
Proof.
  intros a w o d [->| ->]; [rewrite !Rmult_1_l; reflexivity|]. replace (-1 * o) with (- o) by ring. replace (-1 * d) with (- d) by ring.
  unfold plane_axis_hits. rewrite isclose_opp0, Rabs_Ropp. destruct (isclose d 0) eqn:Z; [reflexivity|].
  pose proof (isclose_false_nonzero d Z) as NZ. cbn [b2r]. rewrite !Rplus_0_r. rewrite sort2_swap. f_equal.
  cbn [xdiv]. destruct (Req_EM_T (- d) 0); [lra|]. destruct (Req_EM_T d 0); [lra|]. f_equal; f_equal; field; auto.
Qed.
Lemma centred_side : forall a lo hi, sign a -> (a = 1 \/ centred lo hi) -> carried_side a 0 (sort2 (Fin lo, Fin hi)) (sort2 (Fin lo, Fin hi)).
Proof.
  intros a lo hi S C. rewrite sort2_fin. destruct S as [->| ->].
  - left. split; [reflexivity|]. cbn [fst snd xadd]. rewrite !Rplus_0_r. reflexivity.
  - right. split; [reflexivity|]. destruct C as [C|[-> _]]; [lra|]. cbn [fst snd xsub xopp xadd].
    unfold Rmin, Rmax. destruct (Rle_dec (- hi) hi); f_equal; f_equal; ring.
Qed.
Lemma flip_box : forall a b c x0 y0 z0 x1 y1 z1, sign a -> sign b -> sign c ->
  (a = 1 \/ centred x0 x1) -> (b = 1 \/ centred y0 y1) -> (c = 1 \/ centred z0 z1) ->
  moved_box (flip a b c) (cube_box (fin3 (x0, y0, z0)) (fin3 (x1, y1, z1))) (cube_box (fin3 (x0, y0, z0)) (fin3 (x1, y1, z1))).
Proof.
  intros a b c x0 y0 z0 x1 y1 z1 A B C X Y Z. unfold moved_box, side_of, flip, cube_box, fin3; cbn [row0 row1 row2 vx vy vz vw spanx spany spanz].
  split; [left|split; [right; left|right; right]]; (split; [reflexivity|]; split; [reflexivity|]); apply centred_side; auto.
Qed.
Lemma prim_hits_symmetric : forall p g r, symmetry_of p g -> vw (origin r) = 1 -> vw (direction r) = 0 ->
  prim_hits p (ray_map g r) = prim_hits p r.
Proof.
  intros p g r S O D. pose proof (symmetry_turning p g S) as T.
  destruct p as [q|q lo hi cap|[[x0 y0] z0] [[x1 y1] z1]|f h|w l]; cbn [symmetry_of prim_hits] in *.
  - unfold sphere_hits, ray_map; cbn [origin direction]. rewrite !(turning_dot3 g T). reflexivity.
  - unfold cylinder_hits, ray_map; cbn [origin direction]. rewrite !(about_z_dot2 g S), !(about_z_z g S). reflexivity.
  - destruct S as (a & b & c & A & B & C & -> & X & Y & Z). apply cube_hits_moved; auto; [apply turning_iso; auto|]. apply flip_box; auto.
  - unfold paraboloid_hits, parabola_hits, ray_map; cbn [origin direction]. rewrite !(about_z_dot2 g S), !(about_z_z g S). reflexivity.
  - destruct S as (a & b & A & B & ->). unfold plane_hits, ray_map; cbn [origin direction]. rewrite !mapply_flip; cbn [vx vy vz].
    rewrite !plane_axis_flip, !Rmult_1_l by auto. reflexivity.
Qed.
Lemma isclose_opp : forall x b, isclose (- x) (- b) = isclose x b.
Proof. intros x b. unfold isclose. replace (- x - - b) with (- (x - b)) by ring. rewrite !Rabs_Ropp. reflexivity. Qed.
Lemma not_both : forall x a, 2 * atol < a -> isclose x a = true -> isclose x (- a) = true -> False.
Proof.
  intros x a A H1 H2. unfold isclose in *. apply rleb_true in H1, H2. rewrite Rabs_Ropp in H2. unfold atol, rtol in *.
  rewrite (Rabs_right a) in * by lra. pose proof (Rle_abs (x - - a)) as B1. pose proof (Rle_abs (- (x - a))) as B2. rewrite Rabs_Ropp in B2. lra.
Qed.
Lemma cube_axis_normal_flip : forall a x0 x1 x, sign a -> (a = 1 \/ centred x0 x1) ->
  cube_normal_axis (Rmin x0 x1) (Rmax x0 x1) (a * x) = a * cube_normal_axis (Rmin x0 x1) (Rmax x0 x1) x.
Proof.
  intros a x0 x1 x [->| ->] C; [rewrite !Rmult_1_l; reflexivity|]. destruct C as [C|[-> W]]; [lra|]. replace (-1 * x) with (- x) by ring.
  assert (E : exists w, 2 * atol < w /\ Rmin (- x1) x1 = - w /\ Rmax (- x1) x1 = w).
  { exists (Rabs x1). split; [exact W|]. unfold Rabs, Rmin, Rmax. destruct (Rcase_abs x1); destruct (Rle_dec (- x1) x1); split; lra. }
  destruct E as (w & WW & -> & ->). unfold cube_normal_axis. rewrite (isclose_opp x w). rewrite <- (isclose_opp (- x) w), Ropp_involutive.
  pose proof (not_both x w WW) as NB. destruct (isclose x w), (isclose x (- w)); first [lra|exfalso; auto].
Qed.
Lemma normalize_flat : forall g, turning g -> forall v, vw v = 0 -> vnormalize (mapply g v) = option_map (mapply g) (vnormalize v).
Proof. intros g T v V. apply iso_normalize; auto. apply turning_iso; auto. Qed.
Lemma prim_normal_symmetric : forall p g x, symmetry_of p g -> prim_normal p (mapply g x) = option_map (mapply g) (prim_normal p x).
Proof.
  intros p g x S. pose proof (symmetry_turning p g S) as T.
  destruct p as [q|q lo hi cap|[[x0 y0] z0] [[x1 y1] z1]|f h|w l]; cbn [symmetry_of prim_normal] in *.
  - unfold sphere_normal. rewrite (turning_w0 g T). apply normalize_flat; auto.
  - unfold cylinder_normal. rewrite (about_z_z g S), (about_z_flat g S).
    assert (EQ : forall v w, vw v = 0 -> w = mapply g v -> vnormalize w = option_map (mapply g) (vnormalize v)) by (intros v w V ->; apply normalize_flat; auto).
    assert (N : mapply g (V4 0 0 (-1) 0) = V4 0 0 (-1) 0).
    { replace (V4 0 0 (-1) 0) with (vscale (-1) (V4 0 0 1 0)) by (unfold vscale; cbn [vx vy vz vw]; f_equal; ring).
      rewrite mapply_scale, (about_z_axis g S). reflexivity. }
    destruct cap; [|apply EQ; reflexivity].
    destruct (isclose (vz x) hi); [apply EQ; [reflexivity|]; symmetry; apply about_z_axis; auto|].
    destruct (isclose (vz x) lo); apply EQ; try reflexivity. symmetry; exact N.
  - destruct S as (a & b & c & A & B & C & -> & X & Y & Z). unfold cube_normal. rewrite <- normalize_flat by (auto; reflexivity). f_equal.
    rewrite !mapply_flip; cbn [vx vy vz vw]. rewrite !cube_axis_normal_flip by auto. reflexivity.
  - unfold paraboloid_normal. rewrite (about_z_z g S), (about_z_flat g S). destruct (isclose (vz x) h).
    + rewrite <- (normalize_flat g T) by reflexivity. rewrite (about_z_axis g S). reflexivity.
    + apply normalize_flat; auto.
  - destruct S as (a & b & A & B & ->). cbn [option_map]. unfold plane_normal. rewrite mapply_flip; cbn [vx vy vz vw]. repeat f_equal; ring.
Qed.

(** ** placed surfaces *)
Section Placed.
  Variable m : mat.
  Hypothesis ISO : isometry m.
  Variable s : surf.
  Variable g : mat.
  Hypothesis INV : is_inverse (s_world s) (s_obj s).
  Hypothesis AFF : affine (s_world s).
  Hypothesis COM : mmul m (s_world s) = mmul (s_world s) g.
  Hypothesis SYM : symmetry_of (s_prim s) g.

  Lemma sym_object : mmul (s_obj s) m = mmul g (s_obj s).
  Proof.
    destruct INV as [I1 I2]. rewrite <- (mmul_mid_r (mmul (s_obj s) m)), <- I2, <- mmul_assoc, (mmul_assoc (s_obj s) m), COM.
    rewrite <- (mmul_assoc (s_obj s)), I1, mmul_mid_l. reflexivity.
  Qed.
  Lemma sym_hits : forall r, vw (origin r) = 1 -> vw (direction r) = 0 -> surf_hits s (ray_map m r) = surf_hits s r.
  Proof.
    intros r O D. unfold surf_hits.
    replace (ray_map (s_obj s) (ray_map m r)) with (ray_map g (ray_map (s_obj s) r)).
    2:{ unfold ray_map; cbn [origin direction]. rewrite <- !mapply_mmul, sym_object. reflexivity. }
    rewrite prim_hits_symmetric; auto; unfold ray_map; cbn [origin direction]; rewrite affine_w; auto; eapply affine_inverse; eauto.
  Qed.
  Lemma sym_normal : forall p, world_normal s (mapply m p) = option_map (mapply m) (world_normal s p).
  Proof.
    intro p. unfold world_normal. rewrite <- mapply_mmul, sym_object, mapply_mmul, (prim_normal_symmetric _ g) by auto.
    destruct (prim_normal _ _) as [n|]; [|reflexivity]. cbn [option_map].
    pose proof ISO as (_ & (i & MI) & _). pose proof (symmetry_turning _ _ SYM) as (_ & GI).
    assert (E : mmul (mtrans (s_obj s)) g = mmul (mtrans i) (mtrans (s_obj s))).
    { pose proof (f_equal mtrans sym_object) as E. rewrite !mtrans_mmul in E.
      rewrite <- (mmul_mid_l (mmul (mtrans (s_obj s)) g)). replace mid with (mmul (mtrans i) (mtrans m)).
      - rewrite mmul_assoc, <- (mmul_assoc (mtrans m)), E, (mmul_assoc (mtrans (s_obj s))). destruct GI as [GI _]. rewrite GI, mmul_mid_r. reflexivity.
      - destruct MI as [_ MI]. rewrite <- mtrans_mmul, MI. reflexivity. }
    rewrite <- mapply_mmul, E, mapply_mmul, (iso_trans_inverse m ISO i _ MI).
    rewrite (iso_normalize m ISO) by reflexivity. destruct (vnormalize _) as [u|]; [|reflexivity]. cbn [option_map]. rewrite mapply_scale. reflexivity.
  Qed.
End Placed.

Lemma shape_symmetric : forall asort m, isometry m -> forall s, symmetric m s ->
  (forall f, In f (surface_ids s) -> affine (s_world f) /\ is_inverse (s_world f) (s_obj f)) ->
  same_answer asort m s s /\ Forall2 (alike m) (surface_ids s) (surface_ids s).
Proof.
  intros asort m ISO s. induction s as [f b|i op b l IHl r IHr]; intros S INV; cbn [symmetric] in S.
  - destruct S as (g & COM & SY). destruct (INV f (or_introl eq_refl)) as (A & I). split.
    + intros q O D. cbn [shape_intersect]. rewrite (sym_hits m f g I A COM SY q O D). reflexivity.
    + cbn [surface_ids]. constructor; [|constructor]. split; [reflexivity|]. split; [reflexivity|]. intros p _. eapply sym_normal; eauto.
  - destruct S as (B & SL & SR).
    destruct (IHl SL) as (AL & FL); [intros; apply INV; cbn [surface_ids]; apply in_or_app; auto|].
    destruct (IHr SR) as (AR & FR); [intros; apply INV; cbn [surface_ids]; apply in_or_app; auto|]. split.
    + intros q O D. cbn [shape_intersect]. rewrite (box_hit_moved m ISO b b q B O D), (AL q O D), (AR q O D). reflexivity.
    + cbn [surface_ids]. apply Forall2_app; auto.
Qed.
