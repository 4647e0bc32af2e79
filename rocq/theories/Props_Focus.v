(** * Props_Focus: property C116, slopes behind lenses and the focus that users compute from the rows *)
From Coq Require Import Reals List Bool ZArith Lra Lia Permutation.
Import ListNotations.
From Verif Require Import XR Lin Csg CsgProps Prim Surf World Tracer SpecTrace TraceFacts8 TraceProps Components SpecComponents Utils SpecUtils SpecGauss SpecTrain TrainProps SpecFocus FocusProps FocusExamples.
Open Scope R_scope.

(** C116.  As C107, and now with the direction: the last row of a ray close to the axis has a unit tilt in the
    meridional plane, and its component across the axis, over [y], is as close as one likes to the slope that the
    product of the matrices gives. *)
Theorem C116_slopes_are_gaussian : forall asort, argsort_ok asort -> forall ls ss d b comps, Forall lens_ok ls -> Forall2 (fun l s => made asort (lens_call l) s) ls ss ->
  screen_at d b -> Permutation comps (b :: ss) ->
  forall wl x0 a ns, in_line x0 ls d -> gaussian wl d x0 ls a ns ->
  forall ey ez h0 u0, ey * ey + ez * ez = 1 -> forall eps, 0 < eps -> exists delta, 0 < delta /\
  forall y, 0 < Rabs y < delta ->
  forall gen h tr fuel tr' i c, proper gen h tr comps -> (Z.of_nat (length ns) <= t_limit tr)%Z -> trace asort h gen fuel tr = TOk tr' ->
    nth_error (source_rays gen tr) i = Some c -> c_ray c = sloped ey ez x0 (h0 * y) (u0 * y) -> c_idx c = 1 -> c_wl c = wl ->
  exists rows w H C S, rows_with_id i (f_rows (get_results tr')) = rows ++ [w] /\ map row_idx (rows ++ [w]) = ns /\
    In (row_surf w) (map s_id (surface_ids b)) /\ row_end w = V4 d (H * ey) (H * ez) 0 /\ row_tilt w = V4 C (S * ey) (S * ez) 0 /\ 0 < C /\ C * C + S * S = 1 /\
    Rabs (H / y - height_of a h0 u0) < eps /\ Rabs (C - 1) < eps /\ Rabs (S / y - slope_of a h0 u0) < eps.
Proof. exact lens_trains_slopes. Qed.
Print Assumptions C116_slopes_are_gaussian.

(** The formula of the notebook for the point where a ray crosses the axis gives, in the limit, the crossing that
    Gaussian optics gives.  Parallel light has h0 = 1 and u0 = 0; light from a point on the axis h0 = 0 and u0 = 1. *)
Theorem C116_rows_tell_the_focus : forall asort, argsort_ok asort -> forall ls ss d b comps, Forall lens_ok ls -> Forall2 (fun l s => made asort (lens_call l) s) ls ss ->
  screen_at d b -> Permutation comps (b :: ss) ->
  forall wl x0 a ns, in_line x0 ls d -> gaussian wl d x0 ls a ns ->
  forall ey ez h0 u0, ey * ey + ez * ez = 1 -> ey <> 0 -> slope_of a h0 u0 <> 0 -> forall eps, 0 < eps -> exists delta, 0 < delta /\
  forall y, 0 < Rabs y < delta ->
  forall gen h tr fuel tr' i c, proper gen h tr comps -> (Z.of_nat (length ns) <= t_limit tr)%Z -> trace asort h gen fuel tr = TOk tr' ->
    nth_error (source_rays gen tr) i = Some c -> c_ray c = sloped ey ez x0 (h0 * y) (u0 * y) -> c_idx c = 1 -> c_wl c = wl ->
  exists rows w, rows_with_id i (f_rows (get_results tr')) = rows ++ [w] /\ In (row_surf w) (map s_id (surface_ids b)) /\
    Rabs (axis_crossing w - (d - height_of a h0 u0 / slope_of a h0 u0)) < eps.
Proof. exact rows_tell_the_focus. Qed.
Print Assumptions C116_rows_tell_the_focus.

(** That crossing does not depend on where the screen stands. *)
Theorem C116_focus_does_not_depend_on_the_screen : forall wl d d' x0 ls a a' ns ns' h u, gaussian wl d x0 ls a ns -> gaussian wl d' x0 ls a' ns' -> slope_of a h u <> 0 ->
  d' - height_of a' h u / slope_of a' h u = d - height_of a h u / slope_of a h u.
Proof. exact focus_without_screen. Qed.
Print Assumptions C116_focus_does_not_depend_on_the_screen.

(** One lens, however it was made: the crossing of parallel light lies [f] behind the back principal plane, and
    [f] is what [lensmakers_equation] returns. *)
Theorem C116_measured_focus_is_the_lensmakers : forall asort, argsort_ok asort -> forall l s d b comps, lens_ok l -> made asort (lens_call l) s ->
  screen_at d b -> Permutation comps [b; s] ->
  forall wl x0 n k1 f, l_index l wl = Fin n -> 0 < n -> curvature (l_r1 l) k1 ->
  lensmakers_equation (l_r1 l) (l_r2 l) (Fin n) (Fin (l_t l)) = Some (Fin f) -> x0 < front_of l -> back_of l + ray_offset_value < d ->
  forall ey ez, ey * ey + ez * ez = 1 -> ey <> 0 -> forall eps, 0 < eps -> exists delta, 0 < delta /\
  forall y, 0 < Rabs y < delta ->
  forall gen h tr fuel tr' i c, proper gen h tr comps -> (3 <= t_limit tr)%Z -> trace asort h gen fuel tr = TOk tr' ->
    nth_error (source_rays gen tr) i = Some c -> c_ray c = Ray (V4 x0 (y * ey) (y * ez) 1) (V4 1 0 0 0) -> c_idx c = 1 -> c_wl c = wl ->
  exists rows w, rows_with_id i (f_rows (get_results tr')) = rows ++ [w] /\ In (row_surf w) (map s_id (surface_ids b)) /\
    Rabs (axis_crossing w - (back_of l - f * ((n - 1) * l_t l * k1 / n) + f)) < eps.
Proof. exact measured_focus. Qed.
Print Assumptions C116_measured_focus_is_the_lensmakers.

(** Light from the front focal plane leaves the lens parallel: the direction does not depend on the slope [u0] at
    the start.  On the axis (h0 = 0) it leaves parallel to the axis. *)
Theorem C116_light_from_the_focus_leaves_parallel : forall asort, argsort_ok asort -> forall l s d b comps, lens_ok l -> made asort (lens_call l) s ->
  screen_at d b -> Permutation comps [b; s] ->
  forall wl x0 n k2 f, l_index l wl = Fin n -> 0 < n -> curvature (l_r2 l) k2 ->
  lensmakers_equation (l_r1 l) (l_r2 l) (Fin n) (Fin (l_t l)) = Some (Fin f) -> x0 = front_of l - f * ((n - 1) * l_t l * k2 / n) - f ->
  x0 < front_of l -> back_of l + ray_offset_value < d ->
  forall ey ez h0 u0, ey * ey + ez * ez = 1 -> forall eps, 0 < eps -> exists delta, 0 < delta /\
  forall y, 0 < Rabs y < delta ->
  forall gen h tr fuel tr' i c, proper gen h tr comps -> (3 <= t_limit tr)%Z -> trace asort h gen fuel tr = TOk tr' ->
    nth_error (source_rays gen tr) i = Some c -> c_ray c = sloped ey ez x0 (h0 * y) (u0 * y) -> c_idx c = 1 -> c_wl c = wl ->
  exists rows w C S, rows_with_id i (f_rows (get_results tr')) = rows ++ [w] /\ In (row_surf w) (map s_id (surface_ids b)) /\
    row_tilt w = V4 C (S * ey) (S * ez) 0 /\ 0 < C /\ Rabs (S + h0 * y / f) < eps * Rabs y.
Proof. exact collimator. Qed.
Print Assumptions C116_light_from_the_focus_leaves_parallel.

(** The same for every train whose matrix has no D *)
Theorem C116_trains_collimate : forall asort, argsort_ok asort -> forall ls ss d b comps, Forall lens_ok ls -> Forall2 (fun l s => made asort (lens_call l) s) ls ss ->
  screen_at d b -> Permutation comps (b :: ss) ->
  forall wl x0 a ns, in_line x0 ls d -> gaussian wl d x0 ls a ns -> mD a = 0 ->
  forall ey ez h0 u0, ey * ey + ez * ez = 1 -> forall eps, 0 < eps -> exists delta, 0 < delta /\
  forall y, 0 < Rabs y < delta ->
  forall gen h tr fuel tr' i c, proper gen h tr comps -> (Z.of_nat (length ns) <= t_limit tr)%Z -> trace asort h gen fuel tr = TOk tr' ->
    nth_error (source_rays gen tr) i = Some c -> c_ray c = sloped ey ez x0 (h0 * y) (u0 * y) -> c_idx c = 1 -> c_wl c = wl ->
  exists rows w C S, rows_with_id i (f_rows (get_results tr')) = rows ++ [w] /\ In (row_surf w) (map s_id (surface_ids b)) /\
    row_tilt w = V4 C (S * ey) (S * ez) 0 /\ 0 < C /\ Rabs (S - mC a * (h0 * y)) < eps * Rabs y.
Proof. exact train_collimates. Qed.
Print Assumptions C116_trains_collimate.

(** The bench of examples/convex_collimator.py.  The hypotheses hold of it.  Its source stands the focal length 96/47
    before the middle of the lens, which is 15/376 behind the front focal point; so a ray that leaves with the small slope
    [y] ends with the slope 5/256 [y], not with 0. *)
Example C116_convex_collimator : forall asort, argsort_ok asort -> exists h s b, run_prog asort coll_bench empty_heap = Ok h /\
  lens_ok coll_lens /\ made asort (lens_call coll_lens) s /\ screen_at 1 b /\
  lensmakers_equation (l_r1 coll_lens) (l_r2 coll_lens) (Fin (15 / 10)) (Fin (l_t coll_lens)) = Some (Fin (96 / 47)) /\
  l_index coll_lens (633 / 1000) = Fin (15 / 10) /\ - (96 / 47) < front_of coll_lens /\ back_of coll_lens + ray_offset_value < 1 /\
  forall eps, 0 < eps -> exists delta, 0 < delta /\ forall y, 0 < Rabs y < delta ->
  exists t t', new_tracer h [9%nat] [5; 0]%nat 1 100 = Some t /\ proper (from_axis (- (96 / 47)) y) h t [s; b] /\ trace asort h (from_axis (- (96 / 47)) y) 500 t = TOk t' /\
  exists rows w C S, rows_with_id 0 (f_rows (get_results t')) = rows ++ [w] /\ row_tilt w = V4 C (S * 1) (S * 0) 0 /\ 0 < C /\ Rabs (S / y - 5 / 256) < eps.
Proof.
  intros asort AS. destruct (coll_scene asort AS) as (h & s & b & R & S5 & S0 & M & SC & PR). destruct coll_shape as (K1 & K2 & KT & KF & KB).
  exists h, s, b. split; [exact R|]. split; [exact coll_ok|]. do 2 (split; [assumption|]).
  assert (LM : lensmakers_equation (l_r1 coll_lens) (l_r2 coll_lens) (Fin (15 / 10)) (Fin (l_t coll_lens)) = Some (Fin (96 / 47))).
  { rewrite K1, K2, KT. replace (15 / 10) with (3 / 2) by field. replace (1 / 4 - (2 - 2)) with (1 / 4) by field. exact coll_focus. }
  split; [exact LM|]. split; [reflexivity|]. rewrite KF, KB. unfold ray_offset_value at 1. split; [lra|]. split; [lra|]. intros eps EP.
  set (a := m2_mul (travel (1 - back_of coll_lens)) (m2_mul (lens_matrix (/ 2) (/ - (2)) (15 / 10) (l_t coll_lens)) (travel (front_of coll_lens - - (96 / 47))))).
  assert (G : gaussian (633 / 1000) 1 (- (96 / 47)) [coll_lens] a [1; 15 / 10; 1]).
  { unfold a. eapply G_lens; [rewrite K1; cbn; split; [lra|reflexivity]|rewrite K2; cbn; split; [lra|reflexivity]|reflexivity|lra|]. constructor. }
  assert (SL : slope_of a 0 1 = 5 / 256).
  { unfold a, slope_of, lens_matrix, cross, travel, m2_mul; cbn [mA mB mC mD]. rewrite KT, KF. field. }
  destruct (lens_trains_slopes asort AS [coll_lens] [s] 1 b [s; b]) with (wl := 633 / 1000) (x0 := - (96 / 47)) (a := a) (ns := [1; 15 / 10; 1]) (ey := 1) (ez := 0) (h0 := 0) (u0 := 1) (eps := eps) as (delta & DP & F).
  - constructor; [exact coll_ok|constructor].
  - constructor; [exact M|constructor].
  - exact SC.
  - apply perm_swap.
  - cbn [in_line]. rewrite KF, KB. unfold ray_offset_value. lra.
  - exact G.
  - ring.
  - exact EP.
  - exists delta. split; [exact DP|]. intros y Y. destruct (PR (- (96 / 47)) y) as (t & NT & P). destruct (new_tracer_table _ _ _ _ _ _ NT) as (_ & _ & ES & EN & EL).
    destruct (proper_trace_ok asort AS _ _ _ _ 500 P) as (t' & TR); [rewrite EL; vm_compute; lia|]. exists t, t'. do 3 (split; [assumption|]).
    assert (SR : source_rays (from_axis (- (96 / 47)) y) t = from_axis (- (96 / 47)) y 9%nat 1%nat) by (unfold source_rays; rewrite ES, EN; reflexivity).
    destruct (F y Y (from_axis (- (96 / 47)) y) h t 500%nat t' 0%nat (Col (sloped 1 0 (- (96 / 47)) (0 * y) (1 * y)) 0 100 (633 / 1000) 1 0) P) as (rows & w & H & C & S & E1 & E2 & _ & E4 & E5 & E6 & _ & _ & _ & E7);
      [rewrite EL; vm_compute; discriminate|exact TR|rewrite SR; reflexivity|reflexivity|reflexivity|reflexivity|].
    exists rows, w, C, S. do 3 (split; [assumption|]). rewrite SL in E7. exact E7.
Qed.
(** The focal point itself *)
Example C116_front_focal_point : let f := 96 / 47 in let x0 := front_of coll_lens - f * ((15 / 10 - 1) * l_t coll_lens * / - (2) / (15 / 10)) - f in
  x0 = - (96 / 47) - 15 / 376 /\ curvature (l_r2 coll_lens) (/ - (2)) /\ x0 < front_of coll_lens.
Proof.
  destruct coll_shape as (K1 & K2 & KT & KF & KB). cbv zeta. rewrite K2, KT, KF. cbn [curvature].
  assert (E : 0 - 1 / 4 / 2 + (2 - 2) - 96 / 47 * ((15 / 10 - 1) * (1 / 4 - (2 - 2)) * / - (2) / (15 / 10)) - 96 / 47 = - (96 / 47) - 15 / 376) by field.
  rewrite E. split; [reflexivity|]. split; [split; [lra|reflexivity]|lra].
Qed.
