(** * Props_Show: the properties of draw, of RayTracer.show and of the renderer objects *)
From Coq Require Import Reals List Bool ZArith Lra Lia.
Import ListNotations.
From Verif Require Import XR XRFacts Arr Lin Prim Csg CsgProps Surf SpecGeom SpecTree TreeFacts UnionFacts TreeExamples TreeProps World SpecWorld WorldExamples Tracer SpecTrace TraceExamples
  Sources Render SpecRender RenderProps Utils SpecUtils Show Renderers SpecShow ShowFacts ShowProps ShowProps2 ShowProps3 RendererProps RendererExamples.
Open Scope R_scope.

(** ** C88 *)
(** After a trace, one arrow for each row of the results, in their order, from the start of
    the leg to its end, seen in the view *)
Theorem C88_the_legs_are_drawn : forall asort gooch_of h gen fuel t0 t, trace asort h gen fuel t0 = TOk t ->
  forall junk v how shaded bounds n image extent rays,
  show asort gooch_of h junk v how shaded bounds n t = Shown image extent rays ->
  exists arrows, rays = Some arrows /\ draws_the_legs v (f_rows (get_results t)) arrows.
Proof. exact show_draws_legs. Qed.
Print Assumptions C88_the_legs_are_drawn.
Example C88_hypotheses : forall asort gooch_of junk how, argsort_ok asort -> exists h t t' image extent rays,
  run_prog asort bench_calls empty_heap = Ok h /\ new_tracer h [8; 9]%nat [2%nat] 1 1 = Some t /\
  trace asort h (emit (-1) 1) 5 t = TOk t' /\ f_rows (get_results t') <> [] /\
  show asort gooch_of h junk XY how false None 640 t' = Shown image extent rays.
Proof. exact shown_case. Qed.
(** Before a trace, and after a reset, only the components are drawn. *)
Theorem C88_nothing_drawn_without_a_trace : forall asort gooch_of h t,
  (exists h0 ss cs n l, new_tracer h0 ss cs n l = Some t) \/ (exists t0, t = reset t0) ->
  forall junk v how shaded bounds n image extent rays,
  show asort gooch_of h junk v how shaded bounds n t = Shown image extent rays -> rays = None.
Proof. exact show_without_trace. Qed.
Print Assumptions C88_nothing_drawn_without_a_trace.
(** A scene with two positive sides in the view is drawn exactly if neither side is so short
    against the other that it gets no pixel; otherwise the call raises. *)
Theorem C88_which_scenes_can_be_shown : forall asort gooch_of h junk v how bounds n t comps mins maxes,
  v = XY \/ v = XZ -> map (shape_of h) (t_comps t) = map Some comps -> comps <> [] ->
  pictured comps bounds mins maxes -> 0 < fst (sides v mins maxes) -> 0 < snd (sides v mins maxes) ->
  (showable n (sides v mins maxes) /\ exists image extent rays, show asort gooch_of h junk v how false bounds n t = Shown image extent rays) \/
  (~ showable n (sides v mins maxes) /\ show asort gooch_of h junk v how false bounds n t = ShowRaises ValueError).
Proof. exact show_iff. Qed.
Print Assumptions C88_which_scenes_can_be_shown.
(** both cases occur, with bounds given by the user: 4 x 2, and 1000 x 1 at 640 columns *)
Example C88_both_cases : showable 640 (sides XY (Corner 0 0 0) (Corner 4 2 1)) /\ ~ showable 640 (sides XY (Corner 0 0 0) (Corner 1000 1 1)).
Proof.
  assert (E : INR 640 = 640) by (rewrite INR_IZR_INZ; f_equal; vm_compute; reflexivity).
  unfold showable, sides; cbn [fst snd cx cy cz]. rewrite E. split; [lra|]. intros (_ & _ & X & _). lra.
Qed.
(** A tracer without components cannot be shown; nor can any scene in a view other than the
    two. *)
Theorem C88_no_components_cannot_be_shown : forall asort gooch_of h junk v how shaded bounds n t, t_comps t = [] ->
  show asort gooch_of h junk v how shaded bounds n t = ShowRaises ValueError.
Proof. exact show_empty. Qed.
Print Assumptions C88_no_components_cannot_be_shown.
Theorem C88_other_views_never_shown : forall asort gooch_of h junk how shaded bounds n t image extent rays,
  show asort gooch_of h junk OtherView how shaded bounds n t <> Shown image extent rays.
Proof. exact show_other_view. Qed.
Print Assumptions C88_other_views_never_shown.

(** ** C89 *)
(** By wavelength: every arrow has the colour of its wavelength, so two legs of visible
    light look alike exactly if their wavelengths agree. *)
Theorem C89_rays_by_wavelength : forall asort gooch_of h junk v shaded bounds n t image extent arrows,
  show asort gooch_of h junk v ByWavelength shaded bounds n t = Shown image extent (Some arrows) ->
  (forall k w, nth_error (f_rows (get_results t)) k = Some w -> exists a c, nth_error arrows k = Some a /\ a_ink a = Ink c /\
     forall junk', wavelength_to_rgb junk' (Array [row_wl w]) (8 / 10) = Some [c]) /\
  (forall k k' w w' a a', nth_error (f_rows (get_results t)) k = Some w -> nth_error (f_rows (get_results t)) k' = Some w' ->
     nth_error arrows k = Some a -> nth_error arrows k' = Some a' ->
     visible (row_wl w) -> visible (row_wl w') -> (a_ink a = a_ink a' <-> row_wl w = row_wl w')).
Proof. exact show_by_wavelength. Qed.
Print Assumptions C89_rays_by_wavelength.
(** By source: the legs of one source share a colour, and no two sources share one, provided
    every source gives as many rays as it is asked for and this number has not been
    changed since the trace. *)
Theorem C89_rays_by_source_partial : forall asort gooch_of h gen fuel t0 t, trace asort h gen fuel t0 = TOk t ->
  (forall s, In s (t_sources t0) -> length (gen s (t_n t0)) = t_n t0) ->
  forall junk v shaded bounds n image extent arrows,
  show asort gooch_of h junk v BySource shaded bounds n t = Shown image extent (Some arrows) ->
  exists colour_of : nat -> rgb,
    (forall i j, (i < length (t_sources t0))%nat -> (j < length (t_sources t0))%nat -> colour_of i = colour_of j -> i = j) /\
    forall k w, nth_error (f_rows (get_results t)) k = Some w -> exists a i s j c,
      nth_error arrows k = Some a /\ nth_error (t_sources t0) i = Some s /\ nth_error (gen s (t_n t0)) j = Some c /\
      row_id w = (i * t_n t0 + j)%nat /\ a_ink a = Ink (colour_of i).
Proof. exact show_by_source. Qed.
Print Assumptions C89_rays_by_source_partial.
Example C89_hypotheses : forall t : tracer, t_n t = 1%nat -> forall s, In s (t_sources t) -> length (emit (-1) 1 s (t_n t)) = t_n t.
Proof. intros t -> s _. reflexivity. Qed.
(** Otherwise one colour for everything *)
Theorem C89_one_colour_otherwise : forall asort gooch_of h junk v shaded bounds n t image extent arrows,
  show asort gooch_of h junk v Uniform shaded bounds n t = Shown image extent (Some arrows) ->
  forall a, In a arrows -> a_ink a = C0.
Proof. exact show_uniform. Qed.
Print Assumptions C89_one_colour_otherwise.
(** Changing the number of rays per source after the trace recolours the same results. *)
Theorem C89_rays_per_source_changed_refuted : forall asort gooch_of junk, argsort_ok asort -> exists h t t' bounds m w,
  run_prog asort bench_calls empty_heap = Ok h /\ new_tracer h [8; 9]%nat [2%nat] 1 1 = Some t /\
  trace asort h (emit (-1) 1) 5 t = TOk t' /\ (forall s, length (emit (-1) 1 s (t_n t)) = t_n t) /\
  nth_error (f_rows (get_results t')) m = Some w /\ row_id w = 1%nat /\
  exists image image' extent extent' arrows arrows' a a',
    show asort gooch_of h junk XY BySource false bounds 640 t' = Shown image extent (Some arrows) /\
    show asort gooch_of h junk XY BySource false bounds 640 (set_rays_per_source 2 t') = Shown image' extent' (Some arrows') /\
    nth_error arrows m = Some a /\ nth_error arrows' m = Some a' /\ a_ink a <> a_ink a'.
Proof. exact recoloured. Qed.
Print Assumptions C89_rays_per_source_changed_refuted.

(** ** C90 *)
(** The picture is centred on the smallest box around the components, and one and a half times
    as wide and as high.  So every point of every component is well inside, for
    components whose boxes contain them. *)
Theorem C90_the_picture_frames_the_scene_partial : forall asort gooch_of shapes v shaded n image extent,
  (forall s, In s shapes -> tree_ok s /\ boxes_current s /\ boxes_fit s) ->
  draw asort gooch_of shapes v shaded None n = Drawn image extent ->
  (exists mins maxes, around shapes mins maxes /\
     let '(x0, x1, y0, y1) := extent in
     let '(width, height) := sides v mins maxes in
     x1 - x0 = 3 / 2 * width /\ y1 - y0 = 3 / 2 * height /\
     x0 + x1 = cx mins + cx maxes /\ y0 + y1 = match v with XZ => cz mins + cz maxes | _ => cy mins + cy maxes end) /\
  forall s q, In s shapes -> inside s q -> in_extent extent (projected v q).
Proof. exact frame_is_wider. Qed.
Print Assumptions C90_the_picture_frames_the_scene_partial.
Example C90_hypotheses : forall asort gooch_of, exists image extent,
  draw asort gooch_of [leaf_of cube_c] XZ false None 640 = Drawn image extent.
Proof. intros. destruct (cube_picture asort gooch_of) as (i & E). eauto. Qed.
(** A union of separate parts has too small a box (C05): half of it is outside the picture. *)
Theorem C90_disjoint_union_refuted : forall asort asort' gooch_of, argsort_ok asort -> exists image extent,
  draw asort' gooch_of [two_cubes asort] XY false None 640 = Drawn image extent /\
  inside (two_cubes asort) (V4 (5 / 2) (1 / 2) (1 / 2) 1) /\ ~ in_extent extent (projected XY (V4 (5 / 2) (1 / 2) (1 / 2) 1)).
Proof. exact two_cubes_picture. Qed.
Print Assumptions C90_disjoint_union_refuted.

(** ** C91 *)
(** However a renderer has been used since it was made, and whatever was moved, built or
    turned since, [render] finishes, and returns the picture of the scene as it stands now;
    or it raises if the picture has no rows or columns. *)
Theorem C91_renderers_draw_the_scene_as_it_stands : forall asort gooch_of h0 kind shapes r0 r cs h c comps fuel,
  new_renderer h0 kind shapes = Some r0 -> used asort gooch_of r0 r -> run_catching asort cs h0 = Some h ->
  map (shape_of h) shapes = map Some comps -> (4 <= fuel)%nat ->
  match picture_of asort gooch_of kind comps c with
  | Some image => exists r', render asort gooch_of h c fuel r = RenderOk (Some image) r' /\ rn_results r' = Some image
  | None => exists r', render asort gooch_of h c fuel r = RenderRaises ValueError r'
  end.
Proof. exact renderer_draws. Qed.
Print Assumptions C91_renderers_draw_the_scene_as_it_stands.
(** a renderer that has been used once; then a component is moved *)
Example C91_hypotheses : forall asort gooch_of light, argsort_ok asort -> exists h0 r0 r h s,
  run_prog asort bench_calls empty_heap = Ok h0 /\ new_renderer h0 (ShadedKind light) [2%nat] = Some r0 /\
  used asort gooch_of r0 r /\ rn_results r <> None /\
  run_catching asort [CMotion 2%nat (Move 1 0 0)] h0 = Some h /\ map (shape_of h) [2%nat] = [Some s].
Proof. exact used_renderer. Qed.
