(** * Props_Render: the properties of the camera, the renderers and draw *)
From Coq Require Import Reals List Bool ZArith Lra Lia.
Import ListNotations.
From Verif Require Import XR XRFacts Arr Lin LinFacts Prim Csg SpecCsg CsgProps Surf World Tracer Sources SpecGeom SpecTree TreeFacts SpecTrace SpecOptics ComponentFacts Render SpecRender RenderFacts RenderFacts2 RenderProps RenderExamples.
Open Scope R_scope.

(** C64: rows x columns rays; pixel (i, j) starts at its place in the camera's rectangle,
    taken to the world; all rays run along one unit vector, the camera's own x direction *)
Theorem C64_camera_rays_cover_the_view : forall c inv, is_inverse (cam_world c) inv -> 0 <= cam_aspect c ->
  let columns := cam_h_pixels c in
  exists rows rays d,
    cam_resolution c = (columns, Z.of_nat rows) /\ INR rows <= cam_aspect c * INR columns < INR rows + 1 /\
    cam_span c = (cam_h_width c, cam_aspect c * cam_h_width c) /\
    cam_rays c = Some rays /\ length rays = (rows * columns)%nat /\
    vdot d d = 1 /\ (exists k, 0 < k /\ d = vscale k (mapply (cam_world c) (V4 1 0 0 0))) /\
    forall i j, (i < rows)%nat -> (j < columns)%nat ->
    nth_error rays (i * columns + j) =
    Some (Ray (mapply (cam_world c) (pixel_place (cam_h_width c) (cam_aspect c * cam_h_width c) columns rows i j)) d).
Proof.
  intros c inv INV A columns.
  destruct (int_trunc_nonneg (cam_aspect c * INR columns)) as (P & Q); [apply Rmult_le_pos; auto; apply pos_INR|].
  change (int_trunc (cam_aspect c * INR columns)) with (cam_v_pixels c) in *.
  destruct (vnormalize_nonzero (mapply (cam_world c) (V4 1 0 0 0))) as [d D].
  { intros E. pose proof (inverse_apply_l _ _ (V4 1 0 0 0) INV) as X. rewrite E in X. unfold mapply, vdot in X. cbn in X. inversion X. lra. }
  destruct (camera_grid c d P D) as (rays & E & L & N). destruct (vnormalize_dir _ _ D) as [U K].
  exists (Z.to_nat (cam_v_pixels c)), rays, d. split; [unfold cam_resolution; rewrite Z2Nat.id by auto; auto|].
  split; [rewrite INR_IZR_INZ, Z2Nat.id by auto; auto|]. split; auto.
Qed.
Print Assumptions C64_camera_rays_cover_the_view.
(** the places of the first and the last pixel are two opposite corners of the view *)
Theorem C64_corners_of_the_view : forall w h columns rows, (2 <= columns)%nat -> (2 <= rows)%nat ->
  pixel_place w h columns rows 0 0 = V4 0 (w / 2) (h / 2) 1 /\
  pixel_place w h columns rows (rows - 1) (columns - 1) = V4 0 (- (w / 2)) (- (h / 2)) 1.
Proof. exact pixel_corners. Qed.
Print Assumptions C64_corners_of_the_view.
Example C64_hypotheses : exists inv, is_inverse (cam_world (Camera 640 4 (3 / 4) (mmove 1 2 3))) inv /\ 0 <= 3 / 4.
Proof. exists (mmove (-1) (-2) (-3)). split; [|lra]. cbn [cam_world]. unfold is_inverse, mmove. split; vsimp; f_equal; f_equal; ring. Qed.

(** C65 for the pixels behind which no component has its only hits; otherwise see below *)
Theorem C65_nearest_surface_ahead_partial : forall asort, argsort_ok asort -> forall shapes r,
  nothing_behind asort shapes r ->
  (render_hit asort shapes r = (PInf, (-1)%Z) /\ no_hit asort shapes r) \/
  (exists t sid, render_hit asort shapes r = (Fin t, sid) /\ first_hit asort shapes r t sid).
Proof. exact pixel_first_hit. Qed.
Print Assumptions C65_nearest_surface_ahead_partial.
Example C65_hypotheses : forall asort, nothing_behind asort [ball 3 5 0 0] ahead_ray.
Proof. exact ahead_nothing_behind. Qed.
(** C65 does not hold: a ball behind the camera is drawn, and it hides a ball in front
    of the camera, which the ray tracer does see *)
Theorem C65_behind_the_camera_refuted : forall asort, argsort_ok asort ->
  render_hit asort [ball 7 (-5) 0 0] ahead_ray = (Fin (-6), 7%Z) /\
  render_hit asort [ball 3 5 0 0; ball 7 (-5) 0 0] ahead_ray = (Fin (-6), 7%Z) /\
  forall c, c_ray c = ahead_ray -> propagate asort [ball 3 5 0 0; ball 7 (-5) 0 0] c = (Fin 4, 3%Z).
Proof.
  intros asort AS. split; [apply render_ball_behind|]. split; [apply render_ball_hidden|]. apply trace_ball_ahead; auto.
Qed.
Print Assumptions C65_behind_the_camera_refuted.

(** C66, one light given as a point: the pixel is a mixture of the warm and the cool tone,
    each a mixture with the base colour; the ratio is (1 + cos a) / 2 for the angle a
    between the normal and the direction to the light *)
Theorem C66_pixels_stay_in_range_partial : forall g light p n,
  displayable (g_base g) -> displayable (g_warm g) -> displayable (g_cool g) -> in_unit (g_alpha g) -> in_unit (g_beta g) ->
  vx n * vx n + vy n * vy n + vz n * vz n <= 1 ->
  (vx light, vy light, vz light) <> (vx p, vy p, vz p) ->
  exists px, gooch_shade g light p n = Some px /\ displayable px /\
    (opaque (g_base g) -> opaque (g_warm g) -> opaque (g_cool g) -> opaque px) /\
    let d := V4 (vx light - vx p) (vy light - vy p) (vz light - vz p) 0 in
    exists k, px = mixed k (mixed (g_alpha g) (g_base g) (g_warm g)) (mixed (g_beta g) (g_base g) (g_cool g)) /\
      (2 * k - 1) * vnorm d = vx d * vx n + vy d * vy n + vz d * vz n.
Proof. exact gooch_range. Qed.
Print Assumptions C66_pixels_stay_in_range_partial.
Example C66_hypotheses :
  (forall c, In c [WHITE; BLACK; RED; GREEN; BLUE; YELLOW; ORANGE] -> displayable c /\ opaque c) /\
  in_unit (g_alpha gooch_blue) /\ in_unit (g_beta gooch_blue) /\
  (forall c, in_unit (g_alpha (blue_yellow_gooch c)) /\ in_unit (g_beta (blue_yellow_gooch c))).
Proof.
  split.
  - intros c H. unfold opaque, displayable, in_unit. cbn in H. repeat (destruct H as [<-|H]; [cbn; lra|]). destruct H.
  - unfold in_unit; cbn. split; [lra|]. split; [lra|]. intros _. lra.
Qed.
(** C66 fails for a light given as a 4 x 1 array: the mixture ratio leaves [0, 1],
    although the same light given as a point has a ratio in [0, 1] *)
Theorem C66_array_of_lights_refuted :
  (exists m, many_lights_mixture [V4 10 1 1 1] (V4 0 0 0 1) (V4 0 1 0 0) = Some m /\ 1 < m) /\
  (exists m, light_mixture (V4 10 1 1 1) (V4 0 0 0 1) (V4 0 1 0 0) = Some m /\ 0 <= m <= 1) /\
  (forall a b p n, many_lights_mixture [a; b] p n = None).
Proof. split; [exact many_lights_out_of_range|]. split; [exact one_light_in_range|]. reflexivity. Qed.
Print Assumptions C66_array_of_lights_refuted.

(** C77 *)
Theorem C77_edge_image_marks_the_outlines : forall asort shapes c rays,
  cam_rays c = Some rays ->
  let rows := Z.to_nat (cam_v_pixels c) in
  let columns := cam_h_pixels c in
  let ids := map (fun r => snd (render_hit asort shapes r)) rays in
  (0 < rows)%nat -> (0 < columns)%nat ->
  exists img k, edge_image asort shapes c = Some img /\ length img = rows /\ line_width rows columns k /\
    forall i, (i < rows)%nat -> exists row, nth_error img i = Some row /\ length row = columns /\
    forall j, (j < columns)%nat ->
    (near_border k rows columns ids i j /\ nth_error row j = Some (RGBA 0 0 0 1)) \/
    (~ near_border k rows columns ids i j /\ nth_error row j = Some (RGBA 1 1 1 0)).
Proof. exact edge_image_borders. Qed.
Print Assumptions C77_edge_image_marks_the_outlines.
Example C77_hypotheses : exists rays, let c := Camera 3 2 1 mid in
  cam_rays c = Some rays /\ (0 < Z.to_nat (cam_v_pixels c))%nat /\ (0 < cam_h_pixels c)%nat.
Proof.
  set (c := Camera 3 2 1 mid). assert (V : cam_v_pixels c = 3%Z).
  { unfold cam_v_pixels, c. cbn [cam_aspect cam_h_pixels]. rewrite Rmult_1_l. apply int_trunc_INR. }
  destruct (camera_grid c (V4 1 0 0 0)) as (rays & E & _).
  - rewrite V. lia.
  - cbn [cam_world c]. rewrite mapply_mid. apply vnormalize_unit. unfold vdot; cbn; ring.
  - exists rays. cbv zeta. rewrite V. split; auto. split; cbn; lia.
Qed.

(** C78: the rays of the xy view run down, and each starts over the cell of the axes in which
    its pixel is drawn.  The picture shows the top surface everywhere if the scene's maximum
    in z is positive. *)
Theorem C78_xy_view_from_above_partial : forall asort, argsort_ok asort -> forall n maxes mins shapes,
  cx mins < cx maxes -> cy mins < cy maxes ->
  exists v rays, draw_xy n maxes mins = Some v /\ cam_rays (v_camera v) = Some rays /\
  let rows := Z.to_nat (cam_v_pixels (v_camera v)) in
  let columns := cam_h_pixels (v_camera v) in
  length rays = (rows * columns)%nat /\
  forall i j, (i < rows)%nat -> (j < columns)%nat ->
  exists x y h r, nth_error rays (i * columns + j) = Some r /\ r = Ray (V4 x y h 1) (V4 0 0 (-1) 0) /\
    in_pixel_cell (v_extent v) rows columns i j x y /\
    (0 < cz maxes -> hits_within asort shapes r (fun q => vz q <= cz maxes) -> shows_first_on_line asort shapes r).
Proof.
  intros asort AS n maxes mins shapes X Y. destruct (draw_xy_pixels n maxes mins X Y) as (v & rays & D & E & L & N).
  exists v, rays. split; auto. split; auto. cbv zeta. split; auto. intros i j I J. destruct (N i j I J) as (x & y & R & C).
  exists x, y, (3 / 2 * cz maxes), (Ray (V4 x y (3 / 2 * cz maxes) 1) (V4 0 0 (-1) 0)). split; auto. split; auto. split; auto.
  intros. apply draw_xy_top with (top := cz maxes); auto.
Qed.
Print Assumptions C78_xy_view_from_above_partial.
(** C79: likewise the xz view, which runs along +y *)
Theorem C79_xz_view_from_the_front_partial : forall asort, argsort_ok asort -> forall n maxes mins shapes,
  cx mins < cx maxes -> cz mins < cz maxes ->
  exists v rays, draw_xz n maxes mins = Some v /\ cam_rays (v_camera v) = Some rays /\
  let rows := Z.to_nat (cam_v_pixels (v_camera v)) in
  let columns := cam_h_pixels (v_camera v) in
  length rays = (rows * columns)%nat /\
  forall i j, (i < rows)%nat -> (j < columns)%nat ->
  exists x h z r, nth_error rays (i * columns + j) = Some r /\ r = Ray (V4 x h z 1) (V4 0 1 0 0) /\
    in_pixel_cell (v_extent v) rows columns i j x z /\
    (0 < cy maxes -> hits_within asort shapes r (fun q => vy q <= cy maxes) -> shows_first_on_line asort shapes r).
Proof.
  intros asort AS n maxes mins shapes X Y. destruct (draw_xz_pixels n maxes mins X Y) as (v & rays & D & E & L & N).
  exists v, rays. split; auto. split; auto. cbv zeta. split; auto. intros i j I J. destruct (N i j I J) as (x & y & R & C).
  exists x, (3 / 2 * cy maxes), y, (Ray (V4 x (3 / 2 * cy maxes) y 1) (V4 0 1 0 0)). split; auto. split; auto. split; auto.
  intros. apply draw_xz_first with (top := cy maxes); auto.
Qed.
Print Assumptions C79_xz_view_from_the_front_partial.
(** what whole parts answer lies in the parts, so bounds of the parts are bounds of the hits *)
Theorem C78_C79_parts_bound_the_hits : forall asort, argsort_ok asort -> forall shapes r, world_ray r ->
  (forall f, In f (parts shapes) -> surf_ok f /\ good_local (s_prim f) (ray_map (s_obj f) r)) ->
  hits_within asort shapes r (fun q => exists f, In f (parts shapes) /\ placed f q).
Proof. exact parts_within. Qed.
Print Assumptions C78_C79_parts_bound_the_hits.
Example C78_hypotheses : forall asort, argsort_ok asort ->
  hits_within asort [ball 3 0 0 5] (Ray (V4 0 0 (3 / 2 * 6) 1) (V4 0 0 (-1) 0)) (fun q => vz q <= 6).
Proof.
  intros asort AS s x [<-|[]]. cbn [ball shape_intersect fst].
  replace (Ray (V4 0 0 (3 / 2 * 6) 1) (V4 0 0 (-1) 0)) with (Ray (V4 (0 - 4 * 0) (0 - 4 * 0) (5 - 4 * -1) 1) (V4 0 0 (-1) 0)) by (f_equal; f_equal; lra).
  rewrite ball_hits by ring. unfold ray_at. cbn [origin direction vx vy vz].
  intros [<-|[<-|[]]]; right; right; eexists; (split; [reflexivity|]); cbn; lra.
Qed.
Example C79_hypotheses : forall asort, argsort_ok asort ->
  hits_within asort [ball 3 0 5 0] (Ray (V4 0 1 0 1) (V4 0 1 0 0)) (fun q => vy q <= 6).
Proof.
  intros asort AS s x [<-|[]]. cbn [ball shape_intersect fst].
  replace (Ray (V4 0 1 0 1) (V4 0 1 0 0)) with (Ray (V4 (0 - 4 * 0) (5 - 4 * 1) (0 - 4 * 0) 1) (V4 0 1 0 0)) by (f_equal; f_equal; lra).
  rewrite ball_hits by ring. unfold ray_at. cbn [origin direction vx vy vz].
  intros [<-|[<-|[]]]; right; right; eexists; (split; [reflexivity|]); cbn; lra.
Qed.
(** Below z = 0 (in front of y = 0) the camera stands inside the scene: the middle pixel of
    the picture of a ball shows its far side *)
Theorem C78_scene_below_zero_refuted : forall asort id,
  exists v rays r, draw_xy 3 (Corner 1 1 (-2)) (Corner (-1) (-1) (-4)) = Some v /\ cam_rays (v_camera v) = Some rays /\
  nth_error rays 4 = Some r /\ ~ shows_first_on_line asort [ball id 0 0 (-3)] r.
Proof.
  intros asort id. destruct draw_xy_below as (v & rays & D & E & N). exists v, rays. eexists. split; [exact D|]. split; [exact E|]. split; [exact N|].
  apply ball_below_wrong.
Qed.
Print Assumptions C78_scene_below_zero_refuted.
Theorem C79_scene_before_zero_refuted : forall asort id,
  exists v rays r, draw_xz 3 (Corner 1 (-2) 1) (Corner (-1) (-4) (-1)) = Some v /\ cam_rays (v_camera v) = Some rays /\
  nth_error rays 4 = Some r /\ ~ shows_first_on_line asort [ball id 0 (-3) 0] r.
Proof.
  intros asort id. destruct draw_xz_left as (v & rays & D & E & N). exists v, rays. eexists. split; [exact D|]. split; [exact E|]. split; [exact N|].
  apply ball_left_wrong.
Qed.
Print Assumptions C79_scene_before_zero_refuted.

(** C80 *)
Theorem C80_shaded_pixels : forall asort gooch_of light shapes c rays,
  cam_rays c = Some rays ->
  (forall s, In s (parts shapes) -> (0 <= s_id s)%Z) ->
  (forall s s', In s (parts shapes) -> In s' (parts shapes) -> s_id s = s_id s' -> s = s') ->
  let rows := Z.to_nat (cam_v_pixels c) in
  let columns := cam_h_pixels c in
  exists img, shaded_image asort gooch_of light shapes c = Some img /\ length img = rows /\
    forall i j, (i < rows)%nat -> (j < columns)%nat ->
    exists row r px, nth_error img i = Some row /\ length row = columns /\
      nth_error rays (i * columns + j) = Some r /\ nth_error row j = Some px /\
      (render_hit asort shapes r = (PInf, (-1)%Z) -> px = Some (RGBA 0 0 0 0)) /\
      (forall t s, In s (parts shapes) -> render_hit asort shapes r = (Fin t, s_id s) ->
         px = match world_normal s (ray_at r t) with
              | Some n => gooch_shade (gooch_of s) light (ray_at r t) n
              | None => None
              end).
Proof. exact shaded_pixels. Qed.
Print Assumptions C80_shaded_pixels.
Example C80_hypotheses : let shapes := [ball 3 5 0 0; ball 7 (-5) 0 0] in
  (forall s, In s (parts shapes) -> (0 <= s_id s)%Z) /\
  (forall s s', In s (parts shapes) -> In s' (parts shapes) -> s_id s = s_id s' -> s = s').
Proof.
  cbn. split.
  - intros s [<-|[<-|[]]]; cbn; lia.
  - intros s s' [<-|[<-|[]]] [<-|[<-|[]]]; cbn; intros E; auto; discriminate.
Qed.
