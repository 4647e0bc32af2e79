(** * RenderExamples: scenes for the renderer theorems *)
From Coq Require Import Reals List Bool ZArith Lra Lia Psatz.
Import ListNotations.
From Verif Require Import XR XRFacts Arr Lin LinFacts Prim Csg SpecCsg CsgProps Surf World Tracer Sources SpecGeom SpecTree TreeFacts SurfFacts SpecTrace TraceFacts3 SpecOptics ComponentFacts Render SpecRender RenderFacts RenderFacts2 RenderFacts3 RenderProps.
Open Scope R_scope.

(** A unit sphere moved to (a, b, c): Sphere(1).move(a, b, c), with this id *)
Definition ball_surf (id : Z) (a b c : R) : surf := Surf id (PSphere 1) (mmove a b c) (mmove (- a) (- b) (- c)) 1 Mirror.
Definition ball (id : Z) (a b c : R) : shape := Leaf (ball_surf id a b c) (surf_box (PSphere 1) (mmove a b c)).

Lemma ball_ok : forall id a b c, surf_ok (ball_surf id a b c).
Proof.
  intros. unfold surf_ok, ball_surf; cbn [s_prim s_world s_obj prim_ok]. split; [lra|]. split; [reflexivity|].
  unfold is_inverse, mmove. split; vsimp; f_equal; f_equal; ring.
Qed.
(** A ray of unit direction that passes through the centre, [k] before it *)
Lemma ball_hits : forall id a b c k dx dy dz, dx * dx + dy * dy + dz * dz = 1 ->
  surf_hits (ball_surf id a b c) (Ray (V4 (a - k * dx) (b - k * dy) (c - k * dz) 1) (V4 dx dy dz 0)) = [Fin (k - 1); Fin (k + 1)].
Proof.
  intros id a b c k dx dy dz U. unfold surf_hits, ball_surf; cbn [s_prim s_obj prim_hits].
  assert (E : ray_map (mmove (- a) (- b) (- c)) (Ray (V4 (a - k * dx) (b - k * dy) (c - k * dz) 1) (V4 dx dy dz 0)) =
              Ray (V4 (- k * dx) (- k * dy) (- k * dz) 1) (V4 dx dy dz 0)).
  { unfold mmove. vsimp. f_equal; f_equal; ring. }
  rewrite E. unfold sphere_hits. cbn [origin direction vx vy vz].
  rewrite U. replace (2 * (dx * (- k * dx) + dy * (- k * dy) + dz * (- k * dz))) with (- (2 * k)) by (replace (dx * (- k * dx) + dy * (- k * dy) + dz * (- k * dz)) with (- k * (dx * dx + dy * dy + dz * dz)) by ring; rewrite U; ring).
  replace (- k * dx * (- k * dx) + - k * dy * (- k * dy) + - k * dz * (- k * dz)) with (k * k * (dx * dx + dy * dy + dz * dz)) by ring. rewrite U.
  replace (- (2 * k) * - (2 * k) - 4 * 1 * (k * k * 1 - 1 * 1)) with (2 * 2) by ring.
  assert (P : rleb 0 (2 * 2) = true) by (apply rleb_true; lra). rewrite P.
  rewrite Rmax_right by lra. rewrite sqrt_square by lra. rewrite !xdiv_fin by lra. rewrite sort2_fin.
  replace ((- - (2 * k) + 2) / (2 * 1)) with (k + 1) by field. replace ((- - (2 * k) - 2) / (2 * 1)) with (k - 1) by field.
  rewrite Rmin_right, Rmax_left by lra. auto.
Qed.

(** A ray along x from the origin, a ball 5 behind its start, and one 5 ahead *)
Definition ahead_ray : ray := Ray (V4 0 0 0 1) (V4 1 0 0 0).
Lemma ball_along_x : forall id a, surf_hits (ball_surf id a 0 0) ahead_ray = [Fin (a - 1); Fin (a + 1)].
Proof.
  intros. rewrite <- (ball_hits id a 0 0 a 1 0 0) by ring. f_equal. unfold ahead_ray. f_equal. apply v4_eq; cbn; ring.
Qed.

Lemma render_ball_step : forall asort best id a, 1 < a \/ a < -1 ->
  render_shape asort ahead_ray best (ball id a 0 0) = if xltb (Fin (a - 1)) (fst best) then (Fin (a - 1), id) else best.
Proof.
  intros asort best id a A. unfold render_shape. cbn [ball shape_intersect]. rewrite ball_along_x.
  cbn [map]. unfold positive_or_inf. cbn [xltb]. destruct A as [A|A].
  - replace (rltb 0 (a - 1)) with true by (symmetry; apply rltb_true; lra). replace (rltb 0 (a + 1)) with true by (symmetry; apply rltb_true; lra).
    cbn [argmin argmin_from xltb]. replace (rltb (a + 1) (a - 1)) with false by (symmetry; apply rltb_false; lra). reflexivity.
  - replace (rltb 0 (a - 1)) with false by (symmetry; apply rltb_false; lra). replace (rltb 0 (a + 1)) with false by (symmetry; apply rltb_false; lra). reflexivity.
Qed.
Lemma trace_ball_step : forall asort best id a, 1 < a ->
  propagate_shape asort ahead_ray best (ball id a 0 0) = if xltb (Fin (a - 1)) (fst best) then (Fin (a - 1), id) else best.
Proof.
  intros asort best id a A. unfold propagate_shape. cbn [ball shape_intersect]. rewrite ball_along_x.
  cbn [map]. unfold positive_or_inf. cbn [xltb].
  replace (rltb 0 (a - 1)) with true by (symmetry; apply rltb_true; lra). replace (rltb 0 (a + 1)) with true by (symmetry; apply rltb_true; lra).
  cbn [argmin argmin_from xltb]. replace (rltb (a + 1) (a - 1)) with false by (symmetry; apply rltb_false; lra). reflexivity.
Qed.
Lemma trace_ball_past : forall asort best id a, a < -1 -> propagate_shape asort ahead_ray best (ball id a 0 0) = best.
Proof.
  intros asort best id a A. unfold propagate_shape. cbn [ball shape_intersect]. rewrite ball_along_x.
  cbn [map]. unfold positive_or_inf. cbn [xltb].
  replace (rltb 0 (a - 1)) with false by (symmetry; apply rltb_false; lra). replace (rltb 0 (a + 1)) with false by (symmetry; apply rltb_false; lra).
  cbn [argmin argmin_from xltb nth]. destruct (fst best); reflexivity.
Qed.
Lemma render_ball_behind : forall asort, render_hit asort [ball 7 (-5) 0 0] ahead_ray = (Fin (-6), 7%Z).
Proof.
  intros. unfold render_hit. cbn [fold_left]. rewrite render_ball_step by lra. cbn [fst xltb]. f_equal. f_equal. lra.
Qed.
Lemma render_ball_hidden : forall asort, render_hit asort [ball 3 5 0 0; ball 7 (-5) 0 0] ahead_ray = (Fin (-6), 7%Z).
Proof.
  intros. unfold render_hit. cbn [fold_left]. rewrite !render_ball_step by lra. cbn [fst xltb].
  replace (rltb (-5 - 1) (5 - 1)) with true by (symmetry; apply rltb_true; lra). f_equal. f_equal. lra.
Qed.
Lemma ahead_nothing_behind : forall asort, nothing_behind asort [ball 3 5 0 0] ahead_ray.
Proof.
  intros asort s [<-|[]]. left. cbn [ball shape_intersect fst]. rewrite ball_along_x. exists (5 - 1). split; [simpl; auto|lra].
Qed.
(** The tracer itself sees the ball ahead *)
Lemma trace_ball_ahead : forall asort, argsort_ok asort -> forall c, c_ray c = ahead_ray ->
  propagate asort [ball 3 5 0 0; ball 7 (-5) 0 0] c = (Fin 4, 3%Z).
Proof.
  intros asort AS c E. unfold propagate. rewrite E. cbn [fold_left]. rewrite trace_ball_past, trace_ball_step by lra.
  cbn [fst xltb]. f_equal. f_equal. lra.
Qed.

(** ** Many lights *)
(** One light, given as a 4x1 array, on a surface facing along y *)
Lemma many_lights_out_of_range :
  exists m, many_lights_mixture [V4 10 1 1 1] (V4 0 0 0 1) (V4 0 1 0 0) = Some m /\ 1 < m.
Proof.
  unfold many_lights_mixture, many_lights_vectors, sum3. cbv beta zeta. cbn [coord vx vy vz]. replace (10 - 0) with 10 by ring. replace (1 - 0) with 1 by ring.
  replace (10 * 10 + 10 * 10 + 10 * 10) with 300 by ring. replace (1 * 1 + 1 * 1 + 1 * 1) with 3 by ring.
  assert (A : 0 < sqrt 300) by (apply sqrt_lt_R0; lra). assert (B : 0 < sqrt 3) by (apply sqrt_lt_R0; lra).
  assert (B2 : sqrt 3 * sqrt 3 = 3) by (apply sqrt_sqrt; lra). assert (B3 : sqrt 3 < 2).
  { destruct (Rlt_dec (sqrt 3) 2); auto. exfalso. assert (2 * 2 <= sqrt 3 * sqrt 3) by (apply Rmult_le_compat; lra). lra. }
  destruct (Req_EM_T _ 0) as [Z|_].
  { assert (0 < sqrt 300 * sqrt 3 * sqrt 3) by (repeat apply Rmult_lt_0_compat; auto). lra. }
  eexists. split; [reflexivity|].
  assert (C : / 2 < / sqrt 3) by (apply Rinv_lt_contravar; [|auto]; apply Rmult_lt_0_compat; lra).
  unfold Rdiv. set (u := / sqrt 3) in *. set (w := / sqrt 300) in *. lra.
Qed.
Lemma one_light_in_range :
  exists m, light_mixture (V4 10 1 1 1) (V4 0 0 0 1) (V4 0 1 0 0) = Some m /\ 0 <= m <= 1.
Proof.
  destruct (light_mixture_some (V4 10 1 1 1) (V4 0 0 0 1) (V4 0 1 0 0)) as [m M].
  { cbn. intros E. inversion E. lra. }
  exists m. split; auto. apply (gooch_mixture _ _ _ _) in M; [apply M|cbn; lra].
Qed.

(** ** draw on the wrong side of the origin *)
Lemma render_ball_through : forall asort id a b c dx dy dz, dx * dx + dy * dy + dz * dz = 1 ->
  render_hit asort [ball id a b c] (Ray (V4 a b c 1) (V4 dx dy dz 0)) = (Fin 1, id).
Proof.
  intros asort id a b c dx dy dz U. unfold render_hit. cbn [fold_left]. unfold render_shape. cbn [ball shape_intersect].
  pose proof (ball_hits id a b c 0 dx dy dz U) as H.
  replace (V4 (a - 0 * dx) (b - 0 * dy) (c - 0 * dz) 1) with (V4 a b c 1) in H by (f_equal; ring). rewrite H.
  cbn [map]. unfold positive_or_inf. cbn [xltb].
  replace (rltb 0 (0 - 1)) with false by (symmetry; apply rltb_false; lra). replace (rltb 0 (0 + 1)) with true by (symmetry; apply rltb_true; lra).
  cbn [argmin argmin_from xltb nth fst s_id ball_surf]. f_equal. f_equal. lra.
Qed.
Lemma ball_below_wrong : forall asort id,
  ~ shows_first_on_line asort [ball id 0 0 (-3)] (Ray (V4 0 0 (3 / 2 * -2) 1) (V4 0 0 (-1) 0)).
Proof.
  intros asort id H.
  assert (E : Ray (V4 0 0 (3 / 2 * -2) 1) (V4 0 0 (-1) 0) = Ray (V4 0 0 (-3) 1) (V4 0 0 (-1) 0)) by (f_equal; f_equal; lra).
  rewrite E in H. destruct H as [(R & _)|(t & sid & R & _ & L)]; rewrite render_ball_through in R by ring; [discriminate|].
  inversion R; subst. assert (O : on_line asort [ball sid 0 0 (-3)] (Ray (V4 0 0 (-3) 1) (V4 0 0 (-1) 0)) (0 - 1) sid).
  { eexists. split; [left; reflexivity|]. cbn [ball shape_intersect fst snd].
    pose proof (ball_hits sid 0 0 (-3) 0 0 0 (-1) ltac:(ring)) as B.
    replace (V4 (0 - 0 * 0) (0 - 0 * 0) (-3 - 0 * -1) 1) with (V4 0 0 (-3) 1) in B by (f_equal; ring). rewrite B. simpl. auto. }
  apply L in O. lra.
Qed.
Lemma ball_left_wrong : forall asort id,
  ~ shows_first_on_line asort [ball id 0 (-3) 0] (Ray (V4 0 (3 / 2 * -2) 0 1) (V4 0 1 0 0)).
Proof.
  intros asort id H.
  assert (E : Ray (V4 0 (3 / 2 * -2) 0 1) (V4 0 1 0 0) = Ray (V4 0 (-3) 0 1) (V4 0 1 0 0)) by (f_equal; f_equal; lra).
  rewrite E in H. destruct H as [(R & _)|(t & sid & R & _ & L)]; rewrite render_ball_through in R by ring; [discriminate|].
  inversion R; subst. assert (O : on_line asort [ball sid 0 (-3) 0] (Ray (V4 0 (-3) 0 1) (V4 0 1 0 0)) (0 - 1) sid).
  { eexists. split; [left; reflexivity|]. cbn [ball shape_intersect fst snd].
    pose proof (ball_hits sid 0 (-3) 0 0 0 1 0 ltac:(ring)) as B.
    replace (V4 (0 - 0 * 0) (-3 - 0 * 1) (0 - 0 * 0) 1) with (V4 0 (-3) 0 1) in B by (f_equal; ring). rewrite B. simpl. auto. }
  apply L in O. lra.
Qed.

(** the whole picture of those balls: three by three pixels, the middle one on the axis *)
Lemma int_trunc_INR : forall n, int_trunc (INR n) = Z.of_nat n.
Proof.
  intros. destruct (int_trunc_nonneg (INR n) (pos_INR n)) as (P & A & B).
  set (z := int_trunc (INR n)) in *. clearbody z. rewrite INR_IZR_INZ in A, B.
  apply le_IZR in A. rewrite <- plus_IZR in B. apply lt_IZR in B. lia.
Qed.
Lemma draw_xy_below : exists v rays, draw_xy 3 (Corner 1 1 (-2)) (Corner (-1) (-1) (-4)) = Some v /\
  cam_rays (v_camera v) = Some rays /\ nth_error rays 4 = Some (Ray (V4 0 0 (3 / 2 * -2) 1) (V4 0 0 (-1) 0)).
Proof.
  unfold draw_xy. cbn [cx cy cz].
  replace (reqb (15 / 10 * (1 - -1)) 0) with false by (symmetry; apply reqb_false; lra). cbn [orb]. rewrite moved_xy.
  assert (DR : draw_resolution 3 (15 / 10 * (1 - -1)) (15 / 10 * (1 - -1)) = 3%Z).
  { unfold draw_resolution. replace (rltb (15 / 10 * (1 - -1)) (15 / 10 * (1 - -1))) with false by (symmetry; apply rltb_false; lra).
    replace (INR 3 * (15 / 10 * (1 - -1)) / (15 / 10 * (1 - -1))) with (INR 3) by (field; lra). apply int_trunc_INR. }
  rewrite DR. cbn [Z.to_nat Pos.to_nat Pos.iter_op Nat.add].
  set (c := Camera _ _ _ _). assert (VP : cam_v_pixels c = 3%Z).
  { unfold cam_v_pixels, c. cbn [cam_aspect cam_h_pixels].
    replace (15 / 10 * (1 - -1) / (15 / 10 * (1 - -1)) * INR (Pos.to_nat 3)) with (INR 3) by (replace (Pos.to_nat 3) with 3%nat by auto; field; lra).
    apply int_trunc_INR. }
  destruct (camera_grid c (V4 0 0 (-1) 0)) as (rays & E & L & N).
  { rewrite VP. lia. }
  { assert (D : mapply (cam_world c) (V4 1 0 0 0) = V4 0 0 (-1) 0).
    { unfold c, mapply, vdot; cbn. apply v4_eq; cbn; ring. }
    rewrite D. apply vnormalize_unit. unfold vdot; cbn; ring. }
  eexists. exists rays. split; [reflexivity|]. cbn [v_camera]. split; auto.
  rewrite VP in N. specialize (N 1%nat 1%nat ltac:(cbv; lia) ltac:(cbv; lia)).
  replace (1 * cam_h_pixels c + 1)%nat with 4%nat in N by (cbv; auto). rewrite N. do 2 f_equal.
  unfold pixel_place. cbn [cam_h_width cam_aspect c cam_h_pixels Z.to_nat]. change (Pos.to_nat 3 - 1)%nat with 2%nat. cbn [INR].
  unfold mapply, vdot. cbn [cam_world c row0 row1 row2 row3 vx vy vz vw]. apply v4_eq; cbn [vx vy vz vw]; lra.
Qed.
Lemma draw_xz_left : exists v rays, draw_xz 3 (Corner 1 (-2) 1) (Corner (-1) (-4) (-1)) = Some v /\
  cam_rays (v_camera v) = Some rays /\ nth_error rays 4 = Some (Ray (V4 0 (3 / 2 * -2) 0 1) (V4 0 1 0 0)).
Proof.
  unfold draw_xz. cbn [cx cy cz].
  replace (reqb (15 / 10 * (1 - -1)) 0) with false by (symmetry; apply reqb_false; lra). cbn [orb]. rewrite moved_xz.
  assert (DR : draw_resolution 3 (15 / 10 * (1 - -1)) (15 / 10 * (1 - -1)) = 3%Z).
  { unfold draw_resolution. replace (rltb (15 / 10 * (1 - -1)) (15 / 10 * (1 - -1))) with false by (symmetry; apply rltb_false; lra).
    replace (INR 3 * (15 / 10 * (1 - -1)) / (15 / 10 * (1 - -1))) with (INR 3) by (field; lra). apply int_trunc_INR. }
  rewrite DR.
  set (c := Camera _ _ _ _). assert (VP : cam_v_pixels c = 3%Z).
  { unfold cam_v_pixels, c. cbn [cam_aspect cam_h_pixels].
    replace (15 / 10 * (1 - -1) / (15 / 10 * (1 - -1)) * INR (Z.to_nat 3)) with (INR 3) by (replace (Z.to_nat 3) with 3%nat by auto; field; lra).
    apply int_trunc_INR. }
  destruct (camera_grid c (V4 0 1 0 0)) as (rays & E & L & N).
  { rewrite VP. lia. }
  { assert (D : mapply (cam_world c) (V4 1 0 0 0) = V4 0 1 0 0).
    { unfold c, mapply, vdot; cbn. apply v4_eq; cbn; ring. }
    rewrite D. apply vnormalize_unit. unfold vdot; cbn; ring. }
  eexists. exists rays. split; [reflexivity|]. cbn [v_camera]. split; auto.
  rewrite VP in N. specialize (N 1%nat 1%nat ltac:(cbv; lia) ltac:(cbv; lia)).
  replace (1 * cam_h_pixels c + 1)%nat with 4%nat in N by (cbv; auto). rewrite N. do 2 f_equal.
  unfold pixel_place. cbn [cam_h_width cam_aspect c cam_h_pixels]. change (Z.to_nat 3 - 1)%nat with 2%nat. cbn [INR].
  unfold mapply, vdot. cbn [cam_world c row0 row1 row2 row3 vx vy vz vw]. apply v4_eq; cbn [vx vy vz vw]; lra.
Qed.
