(** * Props_Symmetry: symmetric scenes give symmetric results *)
From Coq Require Import Reals List Bool ZArith Lra Lia.
Import ListNotations.
From Verif Require Import XR Arr Lin LinFacts Prim Csg CsgProps Surf World Components SpecComponents ComponentFacts Tracer SpecTrace
  SpecMotion SpecSymmetry SymmetryComponents SymmetryProps SymmetryExamples.
Open Scope R_scope.

(** C84.  [m] is any rotation, reflection or translation of space that leaves every
    component as it is.  If the source ray [j] is the source ray [i] carried by [m], its rows
    are the rows of ray [i] carried by [m], in the same order. *)
Theorem C84_symmetric_scenes_give_symmetric_results : forall asort, argsort_ok asort -> forall m, isometry m ->
  forall gen h t comps fuel t', proper gen h t comps -> Forall (symmetric m) comps -> trace asort h gen fuel t = TOk t' ->
  forall i j c c', nth_error (source_rays gen t) i = Some c -> nth_error (source_rays gen t) j = Some c' ->
  with_id 0 c' = carry m (with_id 0 c) ->
  rows_with_id j (f_rows (get_results t')) =
    map (fun w => row_with_id j (move_row m w)) (rows_with_id i (f_rows (get_results t'))).
Proof. exact symmetric_results. Qed.
Print Assumptions C84_symmetric_scenes_give_symmetric_results.

(** A ray that [m] leaves where it is stays where [m] leaves things: in the plane of a
    reflection, on the axis of a rotation. *)
Theorem C84_rays_of_the_plane_stay_in_it : forall asort, argsort_ok asort -> forall m, isometry m ->
  forall gen h t comps fuel t', proper gen h t comps -> Forall (symmetric m) comps -> trace asort h gen fuel t = TOk t' ->
  forall i c, nth_error (source_rays gen t) i = Some c -> ray_map m (c_ray c) = c_ray c ->
  forall w, In w (rows_with_id i (f_rows (get_results t'))) -> move_row m w = w.
Proof. exact fixed_rays. Qed.
Print Assumptions C84_rays_of_the_plane_stay_in_it.

(** A ray along the optical axis of centred components is never deviated. *)
Theorem C84_axis_rays_stay_on_the_axis : forall asort, argsort_ok asort -> forall gen h t comps fuel t', proper gen h t comps ->
  Forall axially_symmetric comps -> trace asort h gen fuel t = TOk t' ->
  forall i c, nth_error (source_rays gen t) i = Some c -> on_axis (origin (c_ray c)) -> on_axis (direction (c_ray c)) ->
  forall w, In w (rows_with_id i (f_rows (get_results t'))) ->
  on_axis (row_start w) /\ on_axis (row_end w) /\ on_axis (row_tilt w) /\ (vx (row_tilt w) = 1 \/ vx (row_tilt w) = -1).
Proof. exact axis_rays. Qed.
Print Assumptions C84_axis_rays_stay_on_the_axis.

(** Every lens, and every mirror without off-axis shift, is such a component wherever it
    stands on the axis. *)
Theorem C84_lenses_are_symmetric : forall asort, argsort_ok asort -> forall t ap m, wide ap -> 0 <= t ->
  (forall r1 r2, radius_ok r1 (reach ap) -> radius_ok r2 (reach ap) -> axial_component asort (thick_lens r1 r2 t ap m)) /\
  (forall r1 r2, r1 <> 0 -> r2 <> 0 -> axial_component asort (biconvex_lens (Fin r1) (Fin r2) t ap m)) /\
  (forall r, r <> 0 -> axial_component asort (plano_convex_lens (Fin r) t ap m)).
Proof.
  intros asort AS t ap m W T. split; [|split]; intros; [apply thick_lens_axial|apply biconvex_axial|apply plano_axial]; auto.
Qed.
Print Assumptions C84_lenses_are_symmetric.
Theorem C84_mirrors_are_symmetric : forall asort, argsort_ok asort -> forall t ap m, wide ap -> 0 <= t ->
  axial_component asort (plane_mirror t ap (0, 0) m) /\
  (forall r, r <> 0 -> reach ap <= Rabs r -> axial_component asort (spherical_mirror (Fin r) t ap (0, 0) m)) /\
  (forall f, 0 < f -> axial_component asort (parabolic_mirror f t ap (0, 0) m)).
Proof.
  intros asort AS t ap m W T. split; [|split]; intros; [apply plane_mirror_axial|apply spherical_mirror_axial|apply parabolic_mirror_axial]; auto.
Qed.
Print Assumptions C84_mirrors_are_symmetric.

(** components.plane_mirror(1, aperture=2).move_x(5), lit by three parallel rays: the first on
    the axis, the others each other's mirror image.  All of them leave rows. *)
Example C84_hypotheses : forall asort, argsort_ok asort -> standing_at 5 (plane_mirror 1 (Round 2) (0, 0) Mirror) = Makes flat_calls 0 /\
  exists h t t' comps, run_prog asort flat_calls empty_heap = Ok h /\ new_tracer h [9%nat] [0%nat] 3 10 = Some t /\
  proper beams h t comps /\ comps <> [] /\ Forall axially_symmetric comps /\ trace asort h beams 22 t = TOk t' /\
  source_rays beams t = [beam 0; beam (1 / 2); beam (- (1 / 2))] /\
  forall i, (i < 3)%nat -> rows_with_id i (f_rows (get_results t')) <> [].
Proof. intros asort AS. split; [exact flat_factory|exact (flat_scene asort AS)]. Qed.
Example C84_rays : isometry mirror_y /\ with_id 0 (beam (- (1 / 2))) = carry mirror_y (with_id 0 (beam (1 / 2))) /\
  on_axis (origin (c_ray (beam 0))) /\ on_axis (direction (c_ray (beam 0))) /\ ray_map mirror_y (c_ray (beam 0)) = c_ray (beam 0).
Proof.
  split; [exact flip_y_iso|]. split; [|split; [split; reflexivity|split; [split; reflexivity|]]];
    unfold carry, with_ray, with_id, ray_map, beam, mirror_y; cbn [c_ray c_gen c_int c_wl c_idx c_id origin direction];
    rewrite !SymmetryFacts.mapply_flip; unfold point, vector; cbn [vx vy vz vw]; repeat f_equal; ring.
Qed.
Example C84_lens_arguments : wide (Round 1) /\ wide (Pair 1 2) /\ radius_ok (Fin 10) (reach (Round 1)) /\ radius_ok (Fin (-10)) (reach (Round 1)) /\ radius_ok PInf (reach (Round 1)).
Proof.
  unfold wide, reach, radius_ok, atol. rewrite (Rabs_left (-10)), (Rabs_right 10) by lra. repeat split; lra.
Qed.
