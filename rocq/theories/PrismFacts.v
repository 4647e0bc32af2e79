(** * PrismFacts: the faces of the prism and the directions of a ray through it *)
From Coq Require Import Reals Lra Lia List Bool ZArith Psatz.
Import ListNotations.
From Verif Require Import XR XRFacts Arr Lin LinFacts Ops OpsFacts SpecOptics Prim Csg Surf SpecGeom SpecTree CsgProps World SpecWorld Tracer SpecTrace
  Components SpecComponents BuildFacts ComponentFacts ComponentFacts2 ComponentFacts3 SpecMotion MotionFacts MotionFacts5 SpecPrism PrismLaw.
Open Scope R_scope.

(** ** Rigid placements *)
Lemma iso_mmul : forall a b, isometry a -> isometry b -> isometry (mmul a b).
Proof.
  intros a b (A & (ia & IA) & DA) (B & (ib & IB) & DB). split; [apply affine_mmul; auto|]. split; [exists (mmul ib ia); apply is_inverse_mmul; auto|].
  intros u v U V. rewrite !mapply_mmul, DA, DB; auto; rewrite affine_w; auto.
Qed.
Lemma iso_mmove : forall x y z, isometry (mmove x y z).
Proof.
  intros x y z. split; [reflexivity|]. split.
  - exists (mmove (- x) (- y) (- z)). split; rewrite mmove_mmove; unfold mmove, mid; f_equal; f_equal; lra.
  - intros [x1 y1 z1 w1] [x2 y2 z2 w2] U V. cbn [vw] in U, V. subst. rewrite !mapply_mmove. unfold vdot; cbn [vx vy vz vw]. ring.
Qed.
Lemma iso_30 : isometry (mroty (1 / 2) (sqrt 3 / 2)).
Proof. apply (motion_isometry _ _ (Logic.I : WorldFacts3.rigid (RotY 30 Deg)) roty30). Qed.
Lemma iso__30 : isometry (mroty (- (1 / 2)) (sqrt 3 / 2)).
Proof. apply (motion_isometry _ _ (Logic.I : WorldFacts3.rigid (RotY (-30) Deg)) roty_30). Qed.
Lemma iso_mid : isometry mid.
Proof. split; [reflexivity|]. split; [exists mid; split; apply mmul_mid_l|]. intros. rewrite !mapply_mid. auto. Qed.

(** a surface placed by an isometry *)
Lemma placed_normal : forall f p k n, s_nscale f = k -> isometry (s_world f) -> is_inverse (s_world f) (s_obj f) ->
  prim_normal (s_prim f) p = Some n -> unit n -> vw n = 0 ->
  world_normal f (mapply (s_world f) p) = Some (vscale k (mapply (s_world f) n)).
Proof.
  intros f p k n K ISO IN PN U W. unfold world_normal. rewrite (inverse_apply_l _ _ p IN), PN.
  rewrite (iso_trans_inverse _ ISO _ n IN).
  assert (E : vset_w n 0 = n) by (destruct n as [x y z w]; cbn in *; subst; auto). rewrite E.
  rewrite vnormalize_unit by (unfold unit in U; rewrite iso_dot; auto). rewrite K. auto.
Qed.

(** ** The parts of a prism *)
Definition cut (side : R) : R := 11 / 10 * side / (sqrt 3 / 2).
Definition lift (side : R) : mat := mmove 0 0 (side / 2 * (1 - sqrt 3 / 2)).
Definition left_place (side : R) : mat :=
  mmul (lift side) (mmul (mmove (- side / 2) 0 (- side / 2)) (mmul (mroty (1 / 2) (sqrt 3 / 2)) (mmul (mmove (- cut side / 2) 0 (cut side / 2)) mid))).
Definition right_place (side : R) : mat :=
  mmul (lift side) (mmul (mmove (side / 2) 0 (- side / 2)) (mmul (mroty (- (1 / 2)) (sqrt 3 / 2)) (mmul (mmove (cut side / 2) 0 (cut side / 2)) mid))).
Definition cutter (side width : R) : prim := from_sides (cut side) (11 / 10 * width) (cut side).
Definition is_part (f : surf) (p : prim) (m : material) (w : mat) (k : R) : Prop :=
  s_prim f = p /\ s_mat f = m /\ s_world f = w /\ s_nscale f = k.

Lemma prism_parts : forall side width m s, erase s = prism_tree side width m -> exists f1 f2 f3, surface_ids s = [f1; f2; f3] /\
  is_part f1 (from_sides side width side) m (mmul (lift side) mid) 1 /\
  is_part f2 (cutter side width) m (left_place side) (-1) /\ is_part f3 (cutter side width) m (right_place side) (-1).
Proof.
  intros side width m s E. unfold prism_tree in E. cbv zeta in E. cbn [mv] in E.
  destruct s as [f b|i op b l r]; [discriminate|]. cbn [erase] in E. injection E as -> El Er.
  destruct l as [f b'|i' op' b' l' r']; [discriminate|]. cbn [erase] in El. injection El as -> El Er'.
  destruct r as [f3 b3|]; [|discriminate]. destruct l' as [f1 b1|]; [|discriminate]. destruct r' as [f2 b2|]; [|discriminate].
  cbn [erase] in *. injection El as A1 A2 A3 A4. injection Er' as B1 B2 B3 B4. injection Er as C1 C2 C3 C4.
  exists f1, f2, f3. split; [reflexivity|]. repeat split; auto.
Qed.
Lemma iso_left : forall side, isometry (left_place side).
Proof.
  intros. unfold left_place, lift. repeat apply iso_mmul; try apply iso_mmove; try apply iso_mid; try apply iso_30; apply iso__30.
Qed.
Lemma iso_right : forall side, isometry (right_place side).
Proof.
  intros. unfold right_place, lift. repeat apply iso_mmul; try apply iso_mmove; try apply iso_mid; try apply iso_30; apply iso__30.
Qed.
Lemma left_apply : forall side x y z w, mapply (left_place side) (V4 x y z w) =
  V4 (sqrt 3 / 2 * (x + w * (- cut side / 2)) + 1 / 2 * (z + w * (cut side / 2)) + w * (- side / 2)) y
     (- (1 / 2) * (x + w * (- cut side / 2)) + sqrt 3 / 2 * (z + w * (cut side / 2)) + w * (- side / 2) + w * (side / 2 * (1 - sqrt 3 / 2))) w.
Proof.
  intros. unfold left_place, lift. rewrite mmul_mid_r, !mapply_mmul, !mapply_mmove, !mapply_mroty, !mapply_mmove. f_equal; ring.
Qed.
Lemma right_apply : forall side x y z w, mapply (right_place side) (V4 x y z w) =
  V4 (sqrt 3 / 2 * (x + w * (cut side / 2)) - 1 / 2 * (z + w * (cut side / 2)) + w * (side / 2)) y
     (1 / 2 * (x + w * (cut side / 2)) + sqrt 3 / 2 * (z + w * (cut side / 2)) + w * (- side / 2) + w * (side / 2 * (1 - sqrt 3 / 2))) w.
Proof.
  intros. unfold right_place, lift. rewrite mmul_mid_r, !mapply_mmul, !mapply_mmove, !mapply_mroty, !mapply_mmove. f_equal; ring.
Qed.

(** ** Their normals *)
Lemma not_close : forall x b, atol + rtol * Rabs b < Rabs (x - b) -> isclose x b = false.
Proof. intros x b H. unfold isclose. apply rleb_false. lra. Qed.
Lemma far : forall x b B, - B <= b <= B -> atol + rtol * B < x - b \/ atol + rtol * B < b - x -> isclose x b = false.
Proof.
  intros x b B H D. apply not_close. assert (Rabs b <= B) by (apply Rabs_le; lra).
  assert (rtol * Rabs b <= rtol * B) by (apply Rmult_le_compat_l; [unfold rtol; lra|auto]).
  pose proof (Rle_abs (x - b)). pose proof (Rle_abs (b - x)) as A. rewrite (Rabs_minus_sym b x) in A. lra.
Qed.
Lemma is_close : forall b, isclose b b = true.
Proof.
  intro b. unfold isclose. apply rleb_true. rewrite Rminus_diag_eq, Rabs_R0 by auto. unfold atol, rtol. pose proof (Rabs_pos b). lra.
Qed.
Lemma cutter_normal : forall side width sg y z, 1 / 1000000 <= side -> 1 / 1000000 <= width -> sg = 1 \/ sg = -1 ->
  Rabs y < width / 2 -> 1 / 100000000 + 1 / 100000 * side < z + cut side / 2 < side ->
  prim_normal (cutter side width) (V4 (sg * (cut side / 2)) y z 1) = Some (V4 sg 0 0 0).
Proof.
  intros side width sg y z SS WW SG Y Z. destruct sqrt3 as [K2 K].
  assert (CUT : cut side * sqrt 3 = 22 / 10 * side) by (unfold cut; field; lra).
  assert (C1 : 12 / 10 * side <= cut side). { apply (Rmult_le_reg_r (sqrt 3)); [lra|]. rewrite CUT. nra. }
  assert (C2 : cut side <= 13 / 10 * side). { apply (Rmult_le_reg_r (sqrt 3)); [lra|]. rewrite CUT. nra. }
  set (c := cut side) in *. unfold cutter, from_sides. fold c. cbn [prim_normal cube_normal]. unfold cube_normal; cbn [vx vy vz].
  rewrite (Rmin_left (- c / 2)), (Rmax_right (- c / 2)), (Rmin_left (- (11 / 10 * width) / 2)), (Rmax_right (- (11 / 10 * width) / 2)) by lra. apply Rabs_def2 in Y.
  assert (Nx : cube_normal_axis (- c / 2) (c / 2) (sg * (c / 2)) = sg).
  { unfold cube_normal_axis. destruct SG as [-> | ->].
    - rewrite Rmult_1_l, is_close. auto.
    - rewrite (far _ (c / 2) (c / 2)) by (unfold atol, rtol; lra). replace (-1 * (c / 2)) with (- c / 2) by field. rewrite is_close. auto. }
  assert (Ny : cube_normal_axis (- (11 / 10 * width) / 2) (11 / 10 * width / 2) y = 0).
  { unfold cube_normal_axis. rewrite (far y _ (11 / 10 * width / 2)), (far y _ (11 / 10 * width / 2)) by (unfold atol, rtol; lra). auto. }
  assert (Nz : cube_normal_axis (- c / 2) (c / 2) z = 0).
  { unfold cube_normal_axis. rewrite (far z _ (c / 2)), (far z _ (c / 2)) by (unfold atol, rtol; lra). auto. }
  rewrite Nx, Ny, Nz. apply vnormalize_unit. unfold vdot; cbn [vx vy vz vw]. destruct SG as [-> | ->]; ring.
Qed.
Lemma left_normal : forall side width m f q, 1 / 1000000 <= side -> 1 / 1000000 <= width -> is_part f (cutter side width) m (left_place side) (-1) ->
  is_inverse (s_world f) (s_obj f) -> on_left side width q -> world_normal f q = Some out_left.
Proof.
  intros side width m f q SS WW (P & _ & W & K) I (l & y & L & Y & ->). destruct sqrt3 as [K2 KK].
  assert (E : pt (l / 2 - side / 2) y (sqrt 3 / 2 * l - sqrt 3 / 4 * side) = mapply (s_world f) (V4 (1 * (cut side / 2)) y (l - cut side / 2) 1)).
  { rewrite W, left_apply. unfold pt. f_equal; lra. }
  rewrite E, (placed_normal f _ (-1) (V4 1 0 0 0)); auto.
  - rewrite W, left_apply. unfold out_left, vscale; cbn [vx vy vz vw]. f_equal. f_equal; lra.
  - rewrite W. apply iso_left.
  - rewrite P. apply cutter_normal; auto. unfold off_the_base in L. lra.
  - unfold unit, vdot; cbn [vx vy vz vw]. ring.
Qed.
Lemma right_normal : forall side width m f q, 1 / 1000000 <= side -> 1 / 1000000 <= width -> is_part f (cutter side width) m (right_place side) (-1) ->
  is_inverse (s_world f) (s_obj f) -> on_right side width q -> world_normal f q = Some out_right.
Proof.
  intros side width m f q SS WW (P & _ & W & K) I (l & y & L & Y & ->). destruct sqrt3 as [K2 KK].
  assert (E : pt (side / 2 - l / 2) y (sqrt 3 / 2 * l - sqrt 3 / 4 * side) = mapply (s_world f) (V4 (-1 * (cut side / 2)) y (l - cut side / 2) 1)).
  { rewrite W, right_apply. unfold pt. f_equal; lra. }
  rewrite E, (placed_normal f _ (-1) (V4 (-1) 0 0 0)); auto.
  - rewrite W, right_apply. unfold out_right, vscale; cbn [vx vy vz vw]. f_equal. f_equal; lra.
  - rewrite W. apply iso_right.
  - rewrite P. apply cutter_normal; auto. unfold off_the_base in L. lra.
  - unfold unit, vdot; cbn [vx vy vz vw]. ring.
Qed.

(** ** Directions in the frames of the faces *)
Section Frame.
  Variable m : mat.
  Hypothesis ISO : isometry m.
  Lemma local_dir : forall d, vw d = 0 -> exists l, vw l = 0 /\ d = mapply m l.
  Proof.
    intros d D. pose proof ISO as (A & (i & I) & _). exists (mapply i d). split; [|symmetry; apply inverse_apply_r; auto].
    rewrite affine_w; auto. apply (affine_inverse m i I A).
  Qed.
  Lemma frame_left : forall d, vw d = 0 ->
    vdot d (mapply m out_left) * vdot d (mapply m out_left) + vdot d (mapply m up_left) * vdot d (mapply m up_left) + vdot d (mapply m edgewise) * vdot d (mapply m edgewise) = vdot d d.
  Proof.
    intros d D. destruct (local_dir d D) as (l & L & ->). rewrite !(iso_dot m ISO) by (auto; reflexivity). destruct sqrt3 as [K2 _].
    destruct l as [x y z w]. cbn [vw] in L. subst w. unfold vdot, out_left, up_left, edgewise; cbn [vx vy vz vw]. 
    transitivity (x * x * (sqrt 3 * sqrt 3 / 4 + 1 / 4) + z * z * (sqrt 3 * sqrt 3 / 4 + 1 / 4) + y * y); [field|rewrite K2; field].
  Qed.
  Lemma frame_right : forall d, vw d = 0 ->
    vdot d (mapply m out_right) * vdot d (mapply m out_right) + vdot d (mapply m down_right) * vdot d (mapply m down_right) + vdot d (mapply m edgewise) * vdot d (mapply m edgewise) = vdot d d.
  Proof.
    intros d D. destruct (local_dir d D) as (l & L & ->). rewrite !(iso_dot m ISO) by (auto; reflexivity). destruct sqrt3 as [K2 _].
    destruct l as [x y z w]. cbn [vw] in L. subst w. unfold vdot, out_right, down_right, edgewise; cbn [vx vy vz vw]. 
    transitivity (x * x * (sqrt 3 * sqrt 3 / 4 + 1 / 4) + z * z * (sqrt 3 * sqrt 3 / 4 + 1 / 4) + y * y); [field|rewrite K2; field].
  Qed.
  Lemma turn_down : forall d, vw d = 0 -> vdot d (mapply m down_right) = - (1 / 2) * vdot d (mapply m up_left) - sqrt 3 / 2 * vdot d (mapply m out_left).
  Proof.
    intros d D. destruct (local_dir d D) as (l & L & ->). rewrite !(iso_dot m ISO) by (auto; reflexivity). destruct sqrt3 as [K2 _].
    destruct l as [x y z w]. cbn [vw] in L. subst w. unfold vdot, out_left, up_left, down_right; cbn [vx vy vz vw]. 
    transitivity (x * ((sqrt 3 * sqrt 3) / 4 - 1 / 4) - sqrt 3 / 2 * z); [rewrite K2; field|field].
  Qed.
  Lemma dot_out_left_up : vdot (mapply m out_left) (mapply m up_left) = 0.
  Proof. rewrite (iso_dot m ISO) by reflexivity. unfold vdot, out_left, up_left; cbn [vx vy vz vw]. field. Qed.
  Lemma dot_out_left_edge : vdot (mapply m out_left) (mapply m edgewise) = 0.
  Proof. rewrite (iso_dot m ISO) by reflexivity. unfold vdot, out_left, edgewise; cbn [vx vy vz vw]. ring. Qed.
  Lemma dot_out_right_down : vdot (mapply m out_right) (mapply m down_right) = 0.
  Proof. rewrite (iso_dot m ISO) by reflexivity. unfold vdot, out_right, down_right; cbn [vx vy vz vw]. field. Qed.
  Lemma dot_out_right_edge : vdot (mapply m out_right) (mapply m edgewise) = 0.
  Proof. rewrite (iso_dot m ISO) by reflexivity. unfold vdot, out_right, edgewise; cbn [vx vy vz vw]. ring. Qed.
End Frame.
Lemma tangential_dot : forall d n v, vdot n v = 0 -> vdot (tangential d n) v = vdot d v.
Proof. intros d n v H. unfold tangential. rewrite vdot_sub_l, vdot_scale_l, H. ring. Qed.
Lemma snell_dot : forall k k' d d' n v, vdot n v = 0 -> vscale k (tangential d n) = vscale k' (tangential d' n) -> k * vdot d v = k' * vdot d' v.
Proof. intros k k' d d' n v H E. rewrite <- (tangential_dot d n v H), <- (tangential_dot d' n v H), <- !vdot_scale_l, E. auto. Qed.
Lemma sine_sq : forall d n, unit d -> unit n -> vnorm (tangential d n) * vnorm (tangential d n) = 1 - vdot d n * vdot d n.
Proof.
  intros d n D N. unfold vnorm. rewrite sqrt_sqrt by apply vdot_self_nonneg. unfold tangential.
  rewrite vdot_sub_l, (vdot_comm d), (vdot_comm (vscale _ n)), !vdot_sub_l, !vdot_scale_l, !vdot_scale_r. unfold unit in *. rewrite D, N, (vdot_comm n d). ring.
Qed.
