(** * ShowProps2: the frame of a picture, and concrete cases *)
From Coq Require Import Reals Lra Lia List Bool ZArith.
Import ListNotations.
From Verif Require Import XR XRFacts Arr Lin LinFacts Prim Csg CsgProps Surf SpecGeom SpecTree BoxFacts TreeFacts UnionFacts TreeExamples TreeProps World SpecWorld WorldExamples Tracer TraceFacts TraceFacts2 SpecTrace TraceProps
  TraceExamples Sources Render SpecRender RenderFacts RenderFacts2 RenderProps Utils UtilFacts UtilProps UtilProps2 SpecUtils Show SpecShow ShowFacts ShowProps.
Open Scope R_scope.

Definition corners_of (b : box) : corner * corner :=
  let fin x := match x with Fin r => r | _ => 0 end in
  (Corner (fin (fst (spanx b))) (fin (fst (spany b))) (fin (fst (spanz b))),
   Corner (fin (snd (spanx b))) (fin (snd (spany b))) (fin (snd (spanz b)))).
Lemma vspan_ordered : forall sp lo hi, vspan sp -> sp = (Fin lo, Fin hi) -> lo <= hi.
Proof. intros sp lo hi [(a & b & -> & L)| ->] E; [injection E as -> ->; auto|discriminate]. Qed.
Lemma corners_around : forall shapes mins maxes, shapes <> [] -> (forall s, In s shapes -> vbox (shape_box s)) ->
  scene_corners shapes = Some (mins, maxes) -> around shapes mins maxes.
Proof.
  intros shapes mins maxes NE VB C. unfold scene_corners in C.
  destruct (axis_values spanx shapes) as [xs|] eqn:AX; [|discriminate]. destruct (axis_values spany shapes) as [ys|] eqn:AY; [|discriminate].
  destruct (axis_values spanz shapes) as [zs|] eqn:AZ; [|discriminate]. injection C as <- <-.
  set (boxes := map (fun s => corners_of (shape_box s)) shapes).
  assert (F : forall s, In s shapes -> let q := corners_of (shape_box s) in box_between (shape_box s) (fst q) (snd q) /\
      cx (fst q) <= cx (snd q) /\ cy (fst q) <= cy (snd q) /\ cz (fst q) <= cz (snd q)).
  { intros s S q. destruct (VB s S) as (V1 & V2 & V3).
    destruct (axis_values_some _ _ _ AX s S) as (x0 & x1 & EX & _). destruct (axis_values_some _ _ _ AY s S) as (y0 & y1 & EY & _).
    destruct (axis_values_some _ _ _ AZ s S) as (z0 & z1 & EZ & _). unfold q, corners_of, box_between. rewrite EX, EY, EZ. cbn.
    pose proof (vspan_ordered _ _ _ V1 EX). pose proof (vspan_ordered _ _ _ V2 EY). pose proof (vspan_ordered _ _ _ V3 EZ). auto 10. }
  assert (G : Forall2 (fun s (q : corner * corner) => box_between (shape_box s) (fst q) (snd q) /\
      cx (fst q) <= cx (snd q) /\ cy (fst q) <= cy (snd q) /\ cz (fst q) <= cz (snd q)) shapes boxes).
  { clear - F. unfold boxes. clear boxes. induction shapes as [|s ss IH]; constructor; [apply F; left; auto|apply IH; intros; apply F; right; auto]. }
  exists boxes. split; auto.
  assert (K : forall (span : box -> xr * xr) (f : corner -> R) l,
    (forall b lo hi, box_between b lo hi -> span b = (Fin (f lo), Fin (f hi))) ->
    axis_values span shapes = Some l -> (forall q, In q boxes -> f (fst q) <= f (snd q)) ->
    smallest f (list_min l) (map fst boxes) /\ greatest f (list_max l) (map snd boxes)).
  { intros span f l SP A O. rewrite (axis_values_around span f shapes boxes) in A by (clear - G SP; induction G as [|s q ss qs (B & _) G IH]; constructor; auto).
    injection A as <-. set (l := flat_map _ _).
    assert (N : l <> []). { unfold l, boxes. destruct shapes; [congruence|]. discriminate. }
    split.
    - assert (LB : forall c, In c (map fst boxes) -> list_min l <= f c).
      { intros c C. apply in_map_iff in C. destruct C as (q & <- & Q). apply list_min_le. apply in_flat_map. exists q. cbn. auto. }
      split; auto. pose proof (list_min_in _ N) as I. apply in_flat_map in I. destruct I as (q & Q & [E|[E|[]]]).
      + exists (fst q). split; [apply in_map; auto|auto].
      + exists (fst q). split; [apply in_map; auto|]. apply Rle_antisym; [rewrite <- E; apply O; auto|apply LB, in_map; auto].
    - assert (UB : forall c, In c (map snd boxes) -> f c <= list_max l).
      { intros c C. apply in_map_iff in C. destruct C as (q & <- & Q). apply list_max_ge. apply in_flat_map. exists q. cbn. auto. }
      split; auto. pose proof (list_max_in _ N) as I. apply in_flat_map in I. destruct I as (q & Q & [E|[E|[]]]).
      + exists (snd q). split; [apply in_map; auto|]. apply Rle_antisym; [apply UB, in_map; auto|rewrite <- E; apply O; auto].
      + exists (snd q). split; [apply in_map; auto|auto]. }
  assert (O : forall q, In q boxes -> cx (fst q) <= cx (snd q) /\ cy (fst q) <= cy (snd q) /\ cz (fst q) <= cz (snd q)).
  { intros q Q. unfold boxes in Q. apply in_map_iff in Q. destruct Q as (s & <- & S). apply F; auto. }
  destruct (K spanx cx xs) as (X0 & X1); auto; [intros b lo hi B; apply B|intros q Q; apply O; auto|].
  destruct (K spany cy ys) as (Y0 & Y1); auto; [intros b lo hi B; apply B|intros q Q; apply O; auto|].
  destruct (K spanz cz zs) as (Z0 & Z1); auto; [intros b lo hi B; apply B|intros q Q; apply O; auto|].
  cbn [cx cy cz]. auto 10.
Qed.

Lemma frame_is_wider : forall asort gooch_of shapes v shaded n image extent,
  (forall s, In s shapes -> tree_ok s /\ boxes_current s /\ boxes_fit s) ->
  draw asort gooch_of shapes v shaded None n = Drawn image extent ->
  (exists mins maxes, around shapes mins maxes /\
     let '(x0, x1, y0, y1) := extent in
     let '(width, height) := sides v mins maxes in
     x1 - x0 = 3 / 2 * width /\ y1 - y0 = 3 / 2 * height /\
     x0 + x1 = cx mins + cx maxes /\ y0 + y1 = match v with XZ => cz mins + cz maxes | _ => cy mins + cy maxes end) /\
  forall s q, In s shapes -> inside s q -> in_extent extent (projected v q).
Proof.
  intros asort gooch_of shapes v shaded n image extent OK D. split.
  - destruct (drawn_inv _ _ _ _ _ _ _ _ D) as (mins & maxes & C & V & W & H & ->). exists mins, maxes. split.
    + apply corners_around; auto; [intros E; subst; discriminate|]. intros s S. destruct (OK s S) as (T & B & F). apply (shape_in_box s T B F).
    + destruct V as [-> | ->]; cbn [extent_of sides]; repeat split; lra.
  - intros s q S I. apply (picture_holds _ _ _ _ _ _ _ _ D s q S). destruct (OK s S) as (T & B & F). apply (shape_in_box s T B F); auto.
Qed.

(** ** Cases *)
Lemma many_pixels : 1 <= INR 640.
Proof. apply (le_INR 1). lia. Qed.
Lemma around_one : forall s lo hi, box_between (shape_box s) lo hi -> cx lo <= cx hi -> cy lo <= cy hi -> cz lo <= cz hi -> around [s] lo hi.
Proof.
  intros s lo hi B X Y Z. exists [(lo, hi)]. split; [constructor; auto|].
  unfold smallest, greatest. cbn. repeat split; try (eexists; split; [left; reflexivity|reflexivity]); intros c [<-|[]]; lra.
Qed.
Lemma sheet_box : surf_box square (shift 0 0 (-2)) = Box (Fin (-1), Fin 1) (Fin (-1), Fin 1) (Fin (-2 - 1 / 100), Fin (-2 + 1 / 100)).
Proof.
  unfold surf_box, square, bounding_points, prim_corners, corner_points.
  rewrite !Rmin_left, !Rmax_right by lra. cbn [flat_map map app]. rewrite bounding_box_spans by discriminate.
  unfold mapply, vdot, shift, point. cbn [map row0 row1 row2 row3 vx vy vz vw list_min list_max fold_left].
  repeat match goal with
  | |- context [Rmin ?a ?b] => lazymatch a with context [Rmin _ _] => fail | _ => idtac end; first [rewrite (Rmin_left a b) by lra|rewrite (Rmin_right a b) by lra]
  | |- context [Rmax ?a ?b] => lazymatch a with context [Rmax _ _] => fail | _ => idtac end; first [rewrite (Rmax_left a b) by lra|rewrite (Rmax_right a b) by lra]
  end.
  f_equal; f_equal; f_equal; lra.
Qed.
Lemma cube_picture : forall asort gooch_of, exists image,
  draw asort gooch_of [leaf_of cube_c] XZ false None 640 = Drawn image (extent_of XZ (Corner 1 0 0) (Corner 2 1 1)).
Proof.
  intros asort gooch_of. apply draw_ok; auto; [discriminate| |].
  - apply around_one; cbn [cx cy cz]; try lra. unfold box_between. rewrite box_c. cbn. auto.
  - unfold showable. cbn [sides fst snd cx cy cz]. pose proof many_pixels. lra.
Qed.
Lemma two_cubes_picture : forall asort asort' gooch_of, argsort_ok asort -> exists image extent,
  draw asort' gooch_of [two_cubes asort] XY false None 640 = Drawn image extent /\
  inside (two_cubes asort) (V4 (5 / 2) (1 / 2) (1 / 2) 1) /\ ~ in_extent extent (projected XY (V4 (5 / 2) (1 / 2) (1 / 2) 1)).
Proof.
  intros asort asort' gooch_of AS. destruct (draw_ok asort' gooch_of [two_cubes asort] XY false None 640 (Corner 0 0 0) (Corner 1 1 1)) as (image & D); auto; [discriminate| | |].
  - apply around_one; cbn [cx cy cz]; try lra. unfold box_between. rewrite two_cubes_box by auto. cbn. auto.
  - unfold showable. cbn [sides fst snd cx cy cz]. pose proof many_pixels. lra.
  - exists image. eexists. split; [exact D|]. split.
    + right. exists (V4 (5 / 2) (1 / 2) (1 / 2) 1). cbn [cube_b at_origin s_prim s_world]. rewrite mapply_mid.
      unfold solid, between; cbn [vx vy vz vw]. rewrite !Rmin_left, !Rmax_right by lra. repeat split; lra.
    + unfold in_extent, extent_of, projected. cbn [sides fst snd cx cy cz vx vy]. lra.
Qed.

(** Two sources, one ray each, an absorber; the same frame drawn before and after
    set_rays_per_source *)
Lemma recoloured : forall asort gooch_of junk, argsort_ok asort -> exists h t t' bounds m w,
  run_prog asort bench_calls empty_heap = Ok h /\ new_tracer h [8; 9]%nat [2%nat] 1 1 = Some t /\
  trace asort h (emit (-1) 1) 5 t = TOk t' /\ (forall s, length (emit (-1) 1 s (t_n t)) = t_n t) /\
  nth_error (f_rows (get_results t')) m = Some w /\ row_id w = 1%nat /\
  exists image image' extent extent' arrows arrows' a a',
    show asort gooch_of h junk XY BySource false bounds 640 t' = Shown image extent (Some arrows) /\
    show asort gooch_of h junk XY BySource false bounds 640 (set_rays_per_source 2 t') = Shown image' extent' (Some arrows') /\
    nth_error arrows m = Some a /\ nth_error arrows' m = Some a' /\ a_ink a <> a_ink a'.
Proof.
  intros asort gooch_of junk AS. destruct (a_bench asort) as (h & B).
  pose proof (bench_tracer asort h [8; 9]%nat [2%nat] 1 1 B ltac:(bench_list)) as NT.
  destruct (two_lamps asort h B _ AS NT) as (t' & T & W & _). apply In_nth_error in W. destruct W as (m & M).
  pose proof (trace_inv _ _ _ _ _ _ T) as (c1 & lut & kk & _ & _ & _ & _ & _ & _ & _ & _ & TC & SO & CO & TN & _). cbn in SO, CO, TN.
  set (bounds := Some (Corner (-1) (-1) (-1), Corner 1 1 1)).
  eexists h, _, t', bounds, m, _. split; [apply B|]. split; [exact NT|]. split; [exact T|]. split; [intros s; reflexivity|].
  split; [exact M|]. split; [reflexivity|].
  destruct (bench_at asort h 2 B) as (S2 & _); [lia|].
  assert (SH : forall u, t_comps u = [2%nat] -> exists image rays, show asort gooch_of h junk XY BySource false bounds 640 u =
     Shown image (extent_of XY (Corner (-1) (-1) (-1)) (Corner 1 1 1)) rays).
  { intros u U. apply (show_ok asort gooch_of h junk XY BySource false bounds 640 u [bench_shape 2]); auto.
    - rewrite U. cbn [map]. rewrite S2. reflexivity.
    - discriminate.
    - cbn. auto.
    - unfold showable. cbn [sides fst snd cx cy cz]. pose proof many_pixels. lra. }
  destruct (SH t') as (im & ra & E); auto. destruct (SH (set_rays_per_source 2 t')) as (im' & ra' & E'); auto.
  destruct ra as [ar|]. 2:{ pose proof E as X. apply shown_inv in X. destruct X as (? & ? & ? & _ & _ & _ & _ & X). rewrite TC in X. discriminate. }
  destruct ra' as [ar'|]. 2:{ pose proof E' as X. apply shown_inv in X. destruct X as (? & ? & ? & _ & _ & _ & _ & X). cbn [set_rays_per_source t_complete] in X. rewrite TC in X. discriminate. }
  destruct (arrow_ink _ _ _ _ _ _ _ _ _ _ _ _ _ E) as (inks & I & A). destruct (arrow_ink _ _ _ _ _ _ _ _ _ _ _ _ _ E') as (inks' & I' & A').
  destruct (A m _ M) as (a & NA & NI). destruct (A' m _ M) as (a' & NA' & NI').
  exists im, im', (extent_of XY (Corner (-1) (-1) (-1)) (Corner 1 1 1)), (extent_of XY (Corner (-1) (-1) (-1)) (Corner 1 1 1)), ar, ar', a, a'.
  split; auto. split; auto. split; auto. split; auto.
  rewrite (ink_source _ _ _ _ _ 1 0 I M) in NI by (rewrite ?SO, ?TN; cbn; lia).
  rewrite (ink_source _ _ _ _ _ 0 1 I' M) in NI' by (cbn [set_rays_per_source t_sources t_n]; rewrite ?SO; cbn; lia).
  injection NI as <-. injection NI' as <-. cbn [set_rays_per_source t_sources]. rewrite SO. cbn [length].
  intros X. assert (Y : forall c d, Ink c = Ink d -> c = d) by (intros c d Z; injection Z; auto).
  apply Y, palette_injective in X; lia.
Qed.
(** a traced scene that can be shown in both colourings *)
Lemma shown_case : forall asort gooch_of junk how, argsort_ok asort -> exists h t t' image extent rays,
  run_prog asort bench_calls empty_heap = Ok h /\ new_tracer h [8; 9]%nat [2%nat] 1 1 = Some t /\
  trace asort h (emit (-1) 1) 5 t = TOk t' /\ f_rows (get_results t') <> [] /\
  show asort gooch_of h junk XY how false None 640 t' = Shown image extent rays.
Proof.
  intros asort gooch_of junk how AS. destruct (a_bench asort) as (h & B).
  pose proof (bench_tracer asort h [8; 9]%nat [2%nat] 1 1 B ltac:(bench_list)) as NT.
  destruct (two_lamps asort h B _ AS NT) as (t' & T & W & _).
  pose proof (trace_inv _ _ _ _ _ _ T) as (c1 & lut & kk & _ & _ & _ & _ & _ & _ & _ & _ & TC & SO & CO & TN & _). cbn in CO.
  destruct (bench_at asort h 2 B) as (S2 & _); [lia|].
  destruct (show_ok asort gooch_of h junk XY how false None 640 t' [bench_shape 2] (Corner (-1) (-1) (-2 - 1 / 100)) (Corner 1 1 (-2 + 1 / 100))) as (image & rays & E); auto.
  - rewrite CO. cbn [map]. rewrite S2. reflexivity.
  - discriminate.
  - cbn [pictured]. apply around_one; cbn [cx cy cz]; try lra. unfold box_between. cbn [bench_shape standing shape_box].
    rewrite sheet_box. auto.
  - unfold showable. cbn [sides fst snd cx cy cz]. pose proof many_pixels. lra.
  - eexists h, _, t', image, _, rays. split; [apply B|]. split; [exact NT|]. split; [exact T|]. split; [intros X; rewrite X in W; destruct W|exact E].
Qed.
