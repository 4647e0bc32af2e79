(** * Props_Pixels: exactly which surface each pixel of a picture shows (C111) *)
From Coq Require Import Reals List Bool ZArith Lra Lia.
Import ListNotations.
From Verif Require Import XR XRFacts Arr Lin LinFacts Prim Csg SpecCsg CsgProps Surf World Tracer Sources SpecGeom SpecTree TreeFacts SpecTrace SpecOptics ComponentFacts Render SpecRender RenderFacts RenderFacts2 RenderProps RenderExamples SpecPixels PixelProps.
Open Scope R_scope.

(** C111: for every scene and every pixel's ray, the pixel shows the component whose offer is
    least, where a component offers its nearest hit ahead, or, if it has none ahead, its
    farthest hit behind; the rule leaves no choice *)
Theorem C111_which_surface_a_pixel_shows : forall asort, argsort_ok asort -> forall shapes r pixel,
  pixel_rule asort shapes r pixel <-> pixel = render_hit asort shapes r.
Proof.
  intros asort AS shapes r pixel. split; [|intros ->; apply pixel_shows; auto].
  intros P. eapply pixel_rule_unique; eauto. apply pixel_shows; auto.
Qed.
Print Assumptions C111_which_surface_a_pixel_shows.
(** So a pixel shows what a traced ray would meet if, and only if, no component meets the
    line of sight only behind the camera *)
Theorem C111_same_as_a_traced_ray : forall asort, argsort_ok asort -> forall shapes c,
  render_hit asort shapes (c_ray c) = propagate asort shapes c <->
  forall s, In s shapes -> ~ wholly_behind asort s (c_ray c).
Proof. exact same_as_tracer_iff. Qed.
Print Assumptions C111_same_as_a_traced_ray.
(** and one such component is enough to hide everything ahead *)
Theorem C111_behind_hides_ahead : forall asort, argsort_ok asort -> forall shapes r s,
  In s shapes -> wholly_behind asort s r ->
  exists x sid, render_hit asort shapes r = (x, sid) /\ lies_on_line x /\ ~ lies_ahead x.
Proof. exact behind_takes_pixel. Qed.
Print Assumptions C111_behind_hides_ahead.

(** The two views of draw, without conditions on where the scene lies: pixel (i, j) shows
    what the rule says of the ray from 3/2 of the scene's greatest z (y) down (forwards) *)
Theorem C111_xy_view : forall asort, argsort_ok asort -> forall n maxes mins shapes,
  cx mins < cx maxes -> cy mins < cy maxes ->
  exists v rays, draw_xy n maxes mins = Some v /\ cam_rays (v_camera v) = Some rays /\
  let rows := Z.to_nat (cam_v_pixels (v_camera v)) in
  let columns := cam_h_pixels (v_camera v) in
  forall i j, (i < rows)%nat -> (j < columns)%nat ->
  exists x y, in_pixel_cell (v_extent v) rows columns i j x y /\
    let r := Ray (V4 x y (3 / 2 * cz maxes) 1) (V4 0 0 (-1) 0) in
    nth_error rays (i * columns + j) = Some r /\
    nth_error (map (render_hit asort shapes) rays) (i * columns + j) = Some (render_hit asort shapes r) /\
    pixel_rule asort shapes r (render_hit asort shapes r).
Proof.
  intros asort AS n maxes mins shapes X Y. destruct (draw_xy_pixels n maxes mins X Y) as (v & rays & D & E & L & N).
  exists v, rays. split; auto. split; auto. cbv zeta. intros i j I J. destruct (N i j I J) as (x & y & R & C).
  exists x, y. split; auto. split; auto. split; [apply map_nth_error; auto|]. apply pixel_shows; auto.
Qed.
Print Assumptions C111_xy_view.
Theorem C111_xz_view : forall asort, argsort_ok asort -> forall n maxes mins shapes,
  cx mins < cx maxes -> cz mins < cz maxes ->
  exists v rays, draw_xz n maxes mins = Some v /\ cam_rays (v_camera v) = Some rays /\
  let rows := Z.to_nat (cam_v_pixels (v_camera v)) in
  let columns := cam_h_pixels (v_camera v) in
  forall i j, (i < rows)%nat -> (j < columns)%nat ->
  exists x z, in_pixel_cell (v_extent v) rows columns i j x z /\
    let r := Ray (V4 x (3 / 2 * cy maxes) z 1) (V4 0 1 0 0) in
    nth_error rays (i * columns + j) = Some r /\
    nth_error (map (render_hit asort shapes) rays) (i * columns + j) = Some (render_hit asort shapes r) /\
    pixel_rule asort shapes r (render_hit asort shapes r).
Proof.
  intros asort AS n maxes mins shapes X Y. destruct (draw_xz_pixels n maxes mins X Y) as (v & rays & D & E & L & N).
  exists v, rays. split; auto. split; auto. cbv zeta. intros i j I J. destruct (N i j I J) as (x & y & R & C).
  exists x, y. split; auto. split; auto. split; [apply map_nth_error; auto|]. apply pixel_shows; auto.
Qed.
Print Assumptions C111_xz_view.

(** A ball 5 ahead and one 5 behind: the offers are 4 and -6, and the ball behind is shown *)
Example C111_two_balls : forall asort,
  offers asort (ball 3 5 0 0) ahead_ray (Fin 4) 3 /\ offers asort (ball 7 (-5) 0 0) ahead_ray (Fin (-6)) 7 /\
  wholly_behind asort (ball 7 (-5) 0 0) ahead_ray /\ ~ wholly_behind asort (ball 3 5 0 0) ahead_ray /\
  render_hit asort [ball 3 5 0 0; ball 7 (-5) 0 0] ahead_ray = (Fin (-6), 7%Z).
Proof.
  intros asort.
  assert (A : forall x, In x [Fin (-5 - 1); Fin (-5 + 1)] -> ~ lies_ahead x).
  { intros x [<-|[<-|[]]] (t & E & T); inversion E; lra. }
  split; [|split; [|split; [|split; [|apply render_ball_hidden]]]].
  - unfold offers. cbn [ball shape_intersect]. rewrite ball_along_x. left. exists O. cbn [nth_error repeat s_id ball_surf].
    split; [f_equal; f_equal; lra|]. split; auto. split; [exists 4; split; auto; lra|].
    intros [|[|j]] y J _; cbn in J; [right; split; [inversion J; f_equal; lra|lia]|left; inversion J; cbn; lra|destruct j; discriminate].
  - unfold offers. cbn [ball shape_intersect]. rewrite ball_along_x. right. split; auto. exists O. cbn [nth_error repeat s_id ball_surf].
    split; [f_equal; f_equal; lra|]. split; auto. split; [right; eauto|].
    intros [|[|j]] y J _; cbn in J; [right; split; [inversion J; f_equal; lra|lia]|left; inversion J; cbn; lra|destruct j; discriminate].
  - unfold wholly_behind. cbn [ball shape_intersect fst]. rewrite ball_along_x. split; auto.
    exists (Fin (-5 - 1)). split; [simpl; auto|right; eauto].
  - intros [_ N]. cbn [ball shape_intersect fst] in N. rewrite ball_along_x in N. apply (N (Fin (5 - 1))); [simpl; auto|]. exists (5 - 1). split; auto. lra.
Qed.
