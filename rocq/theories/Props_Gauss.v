(** * Props_Gauss: near its axis a traced lens is the lens of Gaussian optics *)
From Coq Require Import Reals List Bool ZArith Lra.
Import ListNotations.
From Verif Require Import XR Lin Csg CsgProps Prim Surf World Tracer SpecTrace Components SpecComponents Utils SpecUtils SpecGauss GaussProps ImagingProps GaussExamples.
Open Scope R_scope.

(** C87.  [s] is the thick lens as the factory makes it, [b] a screen across the axis behind it.
    A ray that starts before the lens, in a plane through the axis, with height [h0 * y] and slope
    [u0 * y], leaves three rows, the last one on the screen.  Its height there, over [y], is as close
    as one likes to what the matrices of Gaussian optics say, for every small enough [y]. *)
Theorem C87_near_the_axis_the_lens_is_gaussian : forall asort, argsort_ok asort ->
  forall r1 r2 t ap index_at, ap_ok ap -> rim_clear ap -> lens_fits r1 r2 t (reach ap) ->
  built asort (thick_lens r1 r2 t ap (Refractor index_at)) (fun s =>
  forall k1 k2 d b, curvature r1 k1 -> curvature r2 k2 -> screen_at d b -> t / 2 + ray_offset_value < d ->
  forall ey ez x0 h0 u0 wl n, ey * ey + ez * ez = 1 -> x0 < - (t / 2) -> index_at wl = Fin n -> 0 < n ->
  forall eps, 0 < eps -> exists delta, 0 < delta /\
  forall y, 0 < Rabs y < delta ->
  forall gen h tr fuel tr' i c, proper gen h tr [s; b] -> (3 <= t_limit tr)%Z -> trace asort h gen fuel tr = TOk tr' ->
    nth_error (source_rays gen tr) i = Some c -> c_ray c = sloped ey ez x0 (h0 * y) (u0 * y) -> c_idx c = 1 -> c_wl c = wl ->
  exists w0 w1 w2 H, rows_with_id i (f_rows (get_results tr')) = [w0; w1; w2] /\
    row_idx w0 = 1 /\ row_idx w1 = n /\ row_idx w2 = 1 /\ In (row_surf w2) (map s_id (surface_ids b)) /\
    row_end w2 = V4 d (H * ey) (H * ez) 0 /\
    Rabs (H / y - height_of (gauss k1 k2 n t x0 d) h0 u0) < eps).
Proof. exact gaussian_optics. Qed.
Print Assumptions C87_near_the_axis_the_lens_is_gaussian.

(** On a screen at the focal point that [lensmakers_equation] gives, the height of a ray parallel to
    the axis is small against its height before the lens. *)
Theorem C87_parallel_rays_meet_at_the_focal_point : forall asort, argsort_ok asort ->
  forall r1 r2 t ap index_at, ap_ok ap -> rim_clear ap -> lens_fits r1 r2 t (reach ap) ->
  built asort (thick_lens r1 r2 t ap (Refractor index_at)) (fun s =>
  forall k1 k2 n f wl, curvature r1 k1 -> curvature r2 k2 -> index_at wl = Fin n -> 0 < n ->
  lensmakers_equation r1 r2 (Fin n) (Fin t) = Some (Fin f) ->
  forall d b, d = t / 2 + f * (1 - (n - 1) * t * k1 / n) -> screen_at d b -> t / 2 + ray_offset_value < d ->
  forall ey ez x0 eps, ey * ey + ez * ez = 1 -> x0 < - (t / 2) -> 0 < eps -> exists delta, 0 < delta /\
  forall y, 0 < Rabs y < delta ->
  forall gen h tr fuel tr' i c, proper gen h tr [s; b] -> (3 <= t_limit tr)%Z -> trace asort h gen fuel tr = TOk tr' ->
    nth_error (source_rays gen tr) i = Some c -> c_ray c = Ray (V4 x0 (y * ey) (y * ez) 1) (V4 1 0 0 0) -> c_idx c = 1 -> c_wl c = wl ->
  exists w0 w1 w2 H, rows_with_id i (f_rows (get_results tr')) = [w0; w1; w2] /\ In (row_surf w2) (map s_id (surface_ids b)) /\
    row_end w2 = V4 d (H * ey) (H * ez) 0 /\ Rabs H < eps * Rabs y).
Proof. exact parallel_rays_meet. Qed.
Print Assumptions C87_parallel_rays_meet_at_the_focal_point.

(** Object points are imaged: [f] is the focal length that [lensmakers_equation] gives, [so] the distance
    of the object from the front principal plane, [si] that of the screen from the back one.  When
    1/so + 1/si = 1/f, all rays that leave the object point [h0 * y] from the axis, whatever their slopes,
    land -(si/so) times as far from the axis, up to an error small against [y]. *)
Theorem C87_points_are_imaged : forall asort, argsort_ok asort ->
  forall r1 r2 t ap index_at, ap_ok ap -> rim_clear ap -> lens_fits r1 r2 t (reach ap) ->
  built asort (thick_lens r1 r2 t ap (Refractor index_at)) (fun s =>
  forall k1 k2 n f wl, curvature r1 k1 -> curvature r2 k2 -> index_at wl = Fin n -> 0 < n ->
  lensmakers_equation r1 r2 (Fin n) (Fin t) = Some (Fin f) ->
  forall so si, so <> 0 -> si <> 0 -> / so + / si = / f ->
  forall x0 d b, x0 = - (t / 2) - f * (n - 1) * t * k2 / n - so -> d = t / 2 - f * (n - 1) * t * k1 / n + si ->
  x0 < - (t / 2) -> screen_at d b -> t / 2 + ray_offset_value < d ->
  forall ey ez h0 u0 eps, ey * ey + ez * ez = 1 -> 0 < eps -> exists delta, 0 < delta /\
  forall y, 0 < Rabs y < delta ->
  forall gen h tr fuel tr' i c, proper gen h tr [s; b] -> (3 <= t_limit tr)%Z -> trace asort h gen fuel tr = TOk tr' ->
    nth_error (source_rays gen tr) i = Some c -> c_ray c = sloped ey ez x0 (h0 * y) (u0 * y) -> c_idx c = 1 -> c_wl c = wl ->
  exists w0 w1 w2 H, rows_with_id i (f_rows (get_results tr')) = [w0; w1; w2] /\ In (row_surf w2) (map s_id (surface_ids b)) /\
    row_end w2 = V4 d (H * ey) (H * ez) 0 /\ Rabs (H - - (si / so) * (h0 * y)) < eps * Rabs y).
Proof. exact points_are_imaged. Qed.
Print Assumptions C87_points_are_imaged.

(** A biconvex lens and a screen on one bench, and a ray [y] above the axis: whatever the factory's lens
    satisfies holds of a lens in a proper scene. *)
Example C87_hypotheses : forall asort, argsort_ok asort ->
  ap_ok (Round 2) /\ rim_clear (Round 2) /\ lens_fits (Fin 10) (Fin (-10)) 1 (reach (Round 2)) /\
  curvature (Fin 10) (/ 10) /\ curvature (Fin (-10)) (/ -10) /\
  forall P, built asort (thick_lens (Fin 10) (Fin (-10)) 1 (Round 2) crown) P ->
  exists h s b, run_prog asort (screen_calls ++ map (shift 1) lens_calls) empty_heap = Ok h /\
    shape_of h 5%nat = Some s /\ shape_of h 0%nat = Some b /\ P s /\ screen_at 20 b /\
    forall y, exists t, new_tracer h [9%nat] [5; 0]%nat 1 10 = Some t /\ proper (ray_above y) h t [s; b].
Proof.
  intros asort AS. destruct lens_sizes as (A & B & C). do 3 (split; [assumption|]). do 2 (split; [cbn; split; [lra|reflexivity]|]). exact (lens_scene asort AS).
Qed.
(** Focal length of that lens, and the limit of the height over [y] of parallel rays on the screen at 20 *)
Example C87_numbers : lensmakers_equation (Fin 10) (Fin (-10)) (Fin (3 / 2)) (Fin 1) = Some (Fin (600 / 59)) /\
  height_of (gauss (/ 10) (/ -10) (3 / 2) 1 (-5) 20) 1 0 = - (1141 / 1200) /\
  sloped 1 0 (-5) (1 * (1 / 100)) (0 * (1 / 100)) = Ray (V4 (-5) (1 / 100 * 1) (1 / 100 * 0) 1) (V4 1 0 0 0).
Proof.
  split; [|split].
  - destruct (UtilProps.lensmaker_paraxial (Fin 10) (Fin (-10)) (3 / 2) 1 (/ 10) (/ -10)) as (F & _); [cbn; split; [lra|reflexivity]..|lra|].
    destruct F as (f & E & F).
    + unfold lens_matrix, cross, travel, m2_mul; cbn [mA mB mC mD]. apply Rlt_not_eq. lra.
    + rewrite E. do 2 f_equal. unfold lens_matrix, cross, travel, m2_mul in F; cbn [mA mB mC mD] in F. lra.
  - unfold height_of, gauss, lens_matrix, cross, travel, m2_mul; cbn [mA mB mC mD]. lra.
  - unfold sloped, meridional. replace (1 + 0 * (1 / 100) * (0 * (1 / 100))) with 1 by ring. rewrite sqrt_1, Rinv_1. f_equal; f_equal; field.
Qed.
(** An object 20 before the front principal plane of that lens and its image 600/29 behind the back one *)
Example C87_image : let f := 600 / 59 in let so := 20 in let si := 600 / 29 in
  / so + / si = / f /\ - (1 / 2) - f * (3 / 2 - 1) * 1 * / -10 / (3 / 2) - so < - (1 / 2) /\
  1 / 2 + ray_offset_value < 1 / 2 - f * (3 / 2 - 1) * 1 * / 10 / (3 / 2) + si.
Proof. cbv zeta. unfold ray_offset_value. split; [field|split; lra]. Qed.
