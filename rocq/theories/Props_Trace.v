(** * Properties C34..C47, C72..C74: the ray tracer *)
From Coq Require Import Reals List Bool ZArith Permutation Sorted.
Import ListNotations.
From Verif Require Import XR Arr Lin Prim Csg Surf SpecGeom SpecTree World SpecWorld SpecOptics CsgProps Tracer SpecTrace
  TraceFacts5 TraceFacts6 TraceFacts7 TraceFacts8 TraceFacts9 WorldExamples TraceExamples TraceProps.
Open Scope R_scope.

(** ** C34 *)
(** For limits of at least 1 the loop never runs longer than two passes per generation
    and two more, in every scene.  Missing: limits of 0 or less, where the claim is false. *)
Theorem C34_trace_terminates_partial :
  forall asort h gen t fuel, (1 <= t_limit t)%Z -> (2 * Z.to_nat (t_limit t) + 2 <= fuel)%nat ->
  trace asort h gen fuel t <> TFuel /\
  forall t', trace asort h gen fuel t = TOk t' -> (Z.of_nat (t_gen t') <= t_limit t)%Z.
Proof. exact trace_bounded. Qed.
Print Assumptions C34_trace_terminates_partial.

(** In a proper scene it ends without an exception and without nan. *)
Theorem C34_proper_scenes_trace_to_the_end :
  forall asort, argsort_ok asort -> forall gen h t comps fuel, proper gen h t comps ->
  (2 * Z.to_nat (t_limit t) + 2 <= fuel)%nat -> exists t', trace asort h gen fuel t = TOk t'.
Proof. exact proper_trace_ok. Qed.
Print Assumptions C34_proper_scenes_trace_to_the_end.

(** Programs that build parts, place them, hand them to a tracer and go on moving them
    reach proper scenes. *)
Theorem C34_programs_reach_proper_scenes :
  forall asort gen cs cs' h0 h ss ls n lim t0 t,
  run_prog asort cs empty_heap = Ok h0 -> new_tracer h0 ss ls n lim = Some t0 -> NoDup (flat_map (parts h0) ls) ->
  run_prog asort cs' h0 = Ok h ->
  t_comps t = ls -> t_lut t = t_lut t0 -> (1 <= t_limit t)%Z -> t_sources t <> [] ->
  (forall c, In c (source_rays gen t) -> ray_ok c /\ c_gen c = O) ->
  Forall (fit_call (fun wl => exists c, In c (source_rays gen t) /\ c_wl c = wl)) (cs ++ cs') ->
  exists comps, proper gen h t comps.
Proof. exact program_proper. Qed.
Print Assumptions C34_programs_reach_proper_scenes.

(** C34 fails for a limit of 0 or less: a ray between two facing mirrors is traced forever. *)
Theorem C34_limit_not_positive_refuted :
  forall asort limit, (limit <= 0)%Z -> exists h t, bench_run asort [0; 3]%nat limit h t /\
  forall fuel, trace asort h (emit 1 1) fuel t = TFuel.
Proof. exact trapped_case. Qed.
Print Assumptions C34_limit_not_positive_refuted.

Example C34_hypotheses : forall asort, argsort_ok asort -> exists h t t', bench_run asort [1; 2]%nat 2 h t /\
  proper (emit (-1) 1) h t (map bench_shape [1; 2]%nat) /\
  trace asort h (emit (-1) 1) 7 t = TOk t' /\ f_rows (get_results t') = [glass_row; inside_row].
Proof. exact proper_case. Qed.

(** ** C35 *)
(** Missing: limits of 0 or less, where generations exceed the limit. *)
Theorem C35_well_formed_histories_partial :
  forall asort h gen fuel t t', trace asort h gen fuel t = TOk t' ->
  (1 <= t_limit t)%Z ->
  (forall s, In s (t_sources t) -> length (gen s (t_n t)) = t_n t) ->
  (forall s c, In s (t_sources t) -> In c (gen s (t_n t)) -> c_gen c = O) ->
  let rows := f_rows (get_results t') in
  let rays := (t_n t * length (t_sources t))%nat in
  (forall i, exists k, (Z.of_nat k <= t_limit t)%Z /\ map row_gen (rows_with_id i rows) = seq 0 k) /\
  (forall w, In w rows -> (row_id w < rays)%nat /\ (Z.of_nat (row_gen w) < t_limit t)%Z) /\
  (Z.of_nat (length rows) <= t_limit t * Z.of_nat rays)%Z.
Proof. exact frame_well_formed. Qed.
Print Assumptions C35_well_formed_histories_partial.

Theorem C35_limit_zero_refuted :
  forall asort, exists h t t' w, bench_run asort [0; 2]%nat 0 h t /\
  trace asort h (emit 1 1) 9 t = TOk t' /\ In w (f_rows (get_results t')) /\ ~ (Z.of_nat (row_gen w) < t_limit t)%Z.
Proof. exact zero_limit_rows. Qed.
Print Assumptions C35_limit_zero_refuted.

Example C35_hypotheses : forall asort, exists h t t', bench_run asort [0; 2]%nat 10 h t /\
  proper (emit 1 1) h t (map bench_shape [0; 2]%nat) /\
  trace asort h (emit 1 1) 9 t = TOk t' /\ f_rows (get_results t') = [out_row 1; back_row 1].
Proof. exact mirror_case. Qed.

(** ** C36 *)
(** Missing: scenes in which two components share a surface, where the claim is false. *)
Theorem C36_segments_connected_and_straight_partial :
  forall asort, argsort_ok asort -> forall gen h t comps fuel t', proper gen h t comps ->
  trace asort h gen fuel t = TOk t' ->
  (forall w, In w (f_rows (get_results t')) -> leg asort comps w) /\
  (forall i j w w', nth_error (rows_with_id i (f_rows (get_results t'))) j = Some w ->
     nth_error (rows_with_id i (f_rows (get_results t'))) (S j) = Some w' -> follows w w').
Proof. exact proper_legs. Qed.
Print Assumptions C36_segments_connected_and_straight_partial.

(** The same mirror listed twice: the segment has length zero. *)
Theorem C36_shared_surface_refuted :
  forall asort, exists h t t' w, bench_run asort [0; 0]%nat 1 h t /\
  trace asort h (emit 1 1) 5 t = TOk t' /\ In w (f_rows (get_results t')) /\
  ~ exists x, 0 < x /\ row_end w = vadd (row_start w) (vscale x (row_tilt w)).
Proof. exact shared_surface_case. Qed.
Print Assumptions C36_shared_surface_refuted.

Example C36_hypotheses : forall asort, exists h t t', bench_run asort [0; 2]%nat 10 h t /\
  proper (emit 1 1) h t (map bench_shape [0; 2]%nat) /\
  trace asort h (emit 1 1) 9 t = TOk t' /\ f_rows (get_results t') = [out_row 1; back_row 1].
Proof. exact mirror_case. Qed.

(** ** C37 *)
(** In every scene: the row names the surface of the first hit of a ray that starts where
    the row starts and goes where the row goes. *)
Theorem C37_rows_name_the_first_surface :
  forall asort, argsort_ok asort -> forall h gen fuel t t' comps,
  trace asort h gen fuel t = TOk t' -> map (shape_of h) (t_comps t) = map Some comps ->
  forall w, In w (f_rows (get_results t')) ->
  exists r x, first_hit asort comps r x (row_surf w) /\ row_start w = trim (origin r) /\ row_tilt w = hat (trim (direction r)).
Proof. exact row_names_first. Qed.
Print Assumptions C37_rows_name_the_first_surface.

(** In every scene: exactly the rays that hit nothing (or have no direction) leave no row. *)
Theorem C37_no_row_without_a_hit :
  forall asort, argsort_ok asort -> forall h gen fuel t t' comps,
  trace asort h gen fuel t = TOk t' -> map (shape_of h) (t_comps t) = map Some comps ->
  forall i c, nth_error (source_rays gen t) i = Some c ->
  (rows_with_id i (f_rows (get_results t')) = [] <-> stopped c \/ no_hit asort comps (c_ray c)).
Proof. exact no_row. Qed.
Print Assumptions C37_no_row_without_a_hit.

Example C37_hypotheses : forall asort, exists h t t', bench_run asort [0; 2]%nat 10 h t /\
  proper (emit 1 1) h t (map bench_shape [0; 2]%nat) /\
  trace asort h (emit 1 1) 9 t = TOk t' /\ f_rows (get_results t') = [out_row 1; back_row 1].
Proof. exact mirror_case. Qed.

(** ** C38 *)
Theorem C38_nearest_distance_independent_of_order :
  forall asort comps comps' r t sid, argsort_ok asort -> Permutation comps comps' ->
  first_hit asort comps r t sid -> exists sid', first_hit asort comps' r t sid'.
Proof. exact first_hit_distance. Qed.
Print Assumptions C38_nearest_distance_independent_of_order.

Theorem C38_surface_independent_of_order :
  forall asort comps comps' r t sid, argsort_ok asort -> Permutation comps comps' ->
  untied asort comps r -> first_hit asort comps r t sid -> first_hit asort comps' r t sid.
Proof. exact first_hit_perm. Qed.
Print Assumptions C38_surface_independent_of_order.

Theorem C38_frame_independent_of_order :
  forall asort, argsort_ok asort -> forall h gen fuel fuel' t u t' u' comps comps',
  proper gen h t comps -> scene h u comps' -> Permutation (t_comps t) (t_comps u) ->
  t_sources u = t_sources t -> t_n u = t_n t -> t_limit u = t_limit t ->
  trace asort h gen fuel t = TOk t' -> trace asort h gen fuel' u = TOk u' ->
  (forall w, In w (f_rows (get_results t')) -> untied asort comps (Ray (here (row_start w)) (row_tilt w))) ->
  f_rows (get_results u') = f_rows (get_results t').
Proof. exact components_permuted. Qed.
Print Assumptions C38_frame_independent_of_order.

Example C38_hypotheses : forall asort, argsort_ok asort -> exists h t u t' u',
  bench_run asort [0; 2]%nat 10 h t /\ bench_run asort [2; 0]%nat 10 h u /\
  proper (emit 1 1) h t (map bench_shape [0; 2]%nat) /\ scene h u (map bench_shape [2; 0]%nat) /\
  trace asort h (emit 1 1) 9 t = TOk t' /\ trace asort h (emit 1 1) 22 u = TOk u' /\
  f_rows (get_results t') = [out_row 1; back_row 1] /\
  forall w, In w (f_rows (get_results t')) -> untied asort (map bench_shape [0; 2]%nat) (Ray (here (row_start w)) (row_tilt w)).
Proof. exact swapped_case. Qed.

(** ** C39 *)
(** What the code does: the intensity has no influence at all. *)
Theorem C39_intensity_has_no_influence :
  forall asort h gen gen' fuel fuel' t u t' u',
  trace asort h gen fuel t = TOk t' -> trace asort h gen' fuel' u = TOk u' ->
  t_comps t = t_comps u -> t_lut t = t_lut u -> t_limit t = t_limit u ->
  forall i c x, nth_error (source_rays gen t) i = Some c ->
  nth_error (source_rays gen' u) i = Some (Col (c_ray c) (c_gen c) x (c_wl c) (c_idx c) (c_id c)) ->
  rows_with_id i (f_rows (get_results u')) = map (row_with_int x) (rows_with_id i (f_rows (get_results t'))).
Proof. exact intensity_ignored. Qed.
Print Assumptions C39_intensity_has_no_influence.
Example C39_hypotheses : forall asort, exists h t t' u', bench_run asort [0; 2]%nat 10 h t /\
  trace asort h (emit 1 1) 9 t = TOk t' /\ trace asort h (emit 1 (1 / 100)) 9 t = TOk u' /\
  nth_error (source_rays (emit 1 1) t) 0 = Some (Col (axis 0 1) 0 1 1 1 0) /\
  nth_error (source_rays (emit 1 (1 / 100)) t) 0 = Some (Col (axis 0 1) 0 (1 / 100) 1 1 0) /\
  f_rows (get_results t') = [out_row 1; back_row 1].
Proof.
  intros asort. destruct (a_bench asort) as (h & B). destruct (a_run asort h [0; 2]%nat 10 B ltac:(bench_list)) as (t & R).
  pose proof R as (_ & NT). destruct (there_and_back asort h B 1 10 0 t ltac:(discriminate) ltac:(discriminate) NT) as (t' & T & F).
  destruct (there_and_back asort h B (1 / 100) 10 0 t ltac:(discriminate) ltac:(discriminate) NT) as (u' & U & _).
  exists h, t, t', u'. do 3 (split; [assumption|]). unfold source_rays.
  rewrite (bench_tracer asort) in NT by (auto; bench_list). injection NT as <-. cbn. auto.
Qed.

Theorem C39_intensity_threshold_refuted :
  forall asort, exists h t t' w, bench_run asort [0; 2]%nat 10 h t /\
  trace asort h (emit 1 (1 / 100)) 9 t = TOk t' /\ In w (f_rows (get_results t')) /\
  row_gen w = 1%nat /\ row_int w < ray_intensity_threshold.
Proof. exact threshold_case. Qed.
Print Assumptions C39_intensity_threshold_refuted.

(** ** C40 *)
(** Missing: new components with surfaces the old ones did not have; there the claim is false. *)
Theorem C40_load_known_components_partial :
  forall asort, argsort_ok asort ->
  forall h gen fuel fuel' cs t u t' u', new_tracer h (t_sources t) cs (t_n t) (t_limit t) = Some u ->
  NoDup (map fst (t_lut t)) -> NoDup (map fst (t_lut u)) -> incl (t_lut u) (t_lut t) ->
  (forall c, In c (source_rays gen t) -> c_gen c = O) ->
  trace asort h gen fuel (load_components cs t) = TOk t' -> trace asort h gen fuel' u = TOk u' ->
  f_rows (get_results t') = f_rows (get_results u').
Proof. exact reload_partial. Qed.
Print Assumptions C40_load_known_components_partial.

Theorem C40_load_components_refuted :
  forall asort, exists h t u t' u', bench_run asort [0%nat] 1 h t /\ bench_run asort [2%nat] 1 h u /\
  trace asort h (emit (-1) 1) 5 (load_components [2%nat] t) = TOk t' /\ trace asort h (emit (-1) 1) 5 u = TOk u' /\
  f_rows (get_results t') <> f_rows (get_results u').
Proof. exact stale_case. Qed.
Print Assumptions C40_load_components_refuted.

Example C40_hypotheses : forall asort, argsort_ok asort -> exists h t u t' u', bench_run asort [0; 1; 2]%nat 2 h t /\
  new_tracer h (t_sources t) [1; 2]%nat (t_n t) (t_limit t) = Some u /\
  NoDup (map fst (t_lut t)) /\ NoDup (map fst (t_lut u)) /\ incl (t_lut u) (t_lut t) /\
  (forall c, In c (source_rays (emit (-1) 1) t) -> c_gen c = O) /\
  trace asort h (emit (-1) 1) 7 (load_components [1; 2]%nat t) = TOk t' /\ trace asort h (emit (-1) 1) 7 u = TOk u' /\
  f_rows (get_results u') = [glass_row; inside_row].
Proof. exact reload_case. Qed.

(** ** C41 *)
(** In a scene without shared surfaces every ray has the history in which each hit is
    applied once (see [history]).  Missing: components sharing a surface. *)
Theorem C41_each_hit_applied_once_partial :
  forall asort, argsort_ok asort ->
  forall h gen fuel t t' comps, trace asort h gen fuel t = TOk t' -> scene h t comps ->
  forall i c, nth_error (source_rays gen t) i = Some c ->
    history asort comps (flat_map surface_ids comps) (t_limit t) 0 (with_id i c) (rows_with_id i (f_rows (get_results t'))).
Proof. exact scene_histories. Qed.
Print Assumptions C41_each_hit_applied_once_partial.

(** The same mirror listed twice reflects the ray twice and sends it back to its start. *)
Theorem C41_shared_surface_refuted :
  forall asort, exists h t t' w, bench_run asort [0; 0]%nat 1 h t /\
  trace asort h (emit 1 1) 5 t = TOk t' /\ f_rows (get_results t') = [w] /\ row_end w = row_start w.
Proof. exact applied_twice_case. Qed.
Print Assumptions C41_shared_surface_refuted.

Example C41_hypotheses : forall asort, argsort_ok asort -> exists h t t', bench_run asort [1; 2]%nat 2 h t /\
  proper (emit (-1) 1) h t (map bench_shape [1; 2]%nat) /\
  trace asort h (emit (-1) 1) 7 t = TOk t' /\ f_rows (get_results t') = [glass_row; inside_row].
Proof. exact proper_case. Qed.

(** ** C42 *)
Theorem C42_wavelength_and_intensity_carried :
  forall asort h gen fuel t t', trace asort h gen fuel t = TOk t' ->
  forall w, In w (f_rows (get_results t')) ->
  exists c, nth_error (source_rays gen t) (row_id w) = Some c /\ row_wl w = c_wl c /\ row_int w = c_int c.
Proof. exact fields_carried. Qed.
Print Assumptions C42_wavelength_and_intensity_carried.

Example C42_hypotheses : forall asort, exists h t t', bench_run asort [0; 2]%nat 10 h t /\
  proper (emit 1 1) h t (map bench_shape [0; 2]%nat) /\
  trace asort h (emit 1 1) 9 t = TOk t' /\ f_rows (get_results t') = [out_row 1; back_row 1].
Proof. exact mirror_case. Qed.

(** ** C43 *)
(** in every scene *)
Theorem C43_tilts_are_unit :
  forall asort, argsort_ok asort -> forall h gen fuel t t', trace asort h gen fuel t = TOk t' ->
  forall w, In w (f_rows (get_results t')) -> unit (row_tilt w).
Proof. exact tilts_unit. Qed.
Print Assumptions C43_tilts_are_unit.
Example C43_hypotheses : forall asort, exists h t t', bench_run asort [0; 2]%nat 10 h t /\
  proper (emit 1 1) h t (map bench_shape [0; 2]%nat) /\
  trace asort h (emit 1 1) 9 t = TOk t' /\ f_rows (get_results t') = [out_row 1; back_row 1].
Proof. exact mirror_case. Qed.

(** ** C44 *)
Theorem C44_index_bookkeeping :
  forall asort, argsort_ok asort -> forall gen h t comps fuel t', proper gen h t comps ->
  trace asort h gen fuel t = TOk t' -> forall i rows, rows = rows_with_id i (f_rows (get_results t')) ->
  (forall w, nth_error rows 0 = Some w -> exists c, nth_error (source_rays gen t) i = Some c /\ row_idx w = c_idx c) /\
  (forall j w w', nth_error rows j = Some w -> nth_error rows (S j) = Some w' ->
   exists s n, In s (flat_map surface_ids comps) /\ s_id s = row_surf w /\ world_normal s (here (row_end w)) = Some n /\
   let entering := ~ 0 < vdot (row_tilt w) n in
   let sine := vnorm (tangential (row_tilt w) n) in
   (s_mat s = Mirror /\ row_idx w' = row_idx w) \/
   (exists index_at g, s_mat s = Refractor index_at /\ index_at (row_wl w) = Fin g /\
      ((entering /\ row_idx w * sine < g /\ row_idx w' = g) \/
       (entering /\ g <= row_idx w * sine /\ row_idx w' = row_idx w) \/
       (~ entering /\ row_idx w * sine < world_index /\ row_idx w' = world_index) \/
       (~ entering /\ world_index <= row_idx w * sine /\ row_idx w' = row_idx w)))).
Proof. exact proper_index. Qed.
Print Assumptions C44_index_bookkeeping.

Example C44_hypotheses : forall asort, argsort_ok asort -> exists h t t', bench_run asort [1; 2]%nat 2 h t /\
  proper (emit (-1) 1) h t (map bench_shape [1; 2]%nat) /\
  trace asort h (emit (-1) 1) 7 t = TOk t' /\ f_rows (get_results t') = [glass_row; inside_row].
Proof. exact proper_case. Qed.

(** ** C45 *)
Theorem C45_absorbed_rays_recorded_once :
  forall asort, argsort_ok asort -> forall h gen fuel t t' comps,
  trace asort h gen fuel t = TOk t' -> scene h t comps ->
  forall i j w s, nth_error (rows_with_id i (f_rows (get_results t'))) j = Some w ->
  In s (flat_map surface_ids comps) -> s_id s = row_surf w -> s_mat s = Absorber ->
  nth_error (rows_with_id i (f_rows (get_results t'))) (S j) = None.
Proof. exact absorbed_once. Qed.
Print Assumptions C45_absorbed_rays_recorded_once.

(** the second row is on the absorber *)
Example C45_hypotheses : forall asort, exists h t t', bench_run asort [0; 2]%nat 10 h t /\
  proper (emit 1 1) h t (map bench_shape [0; 2]%nat) /\
  trace asort h (emit 1 1) 9 t = TOk t' /\ f_rows (get_results t') = [out_row 1; back_row 1].
Proof. exact mirror_case. Qed.

(** ** C46 *)
Theorem C46_trace_is_repeatable :
  forall asort h gen cs t t2 fuel fuel' t1 t3, after_calls asort h gen cs t t2 ->
  trace asort h gen fuel t = TOk t1 -> trace asort h gen fuel' t2 = TOk t3 -> get_results t3 = get_results t1.
Proof. exact repeatable. Qed.
Print Assumptions C46_trace_is_repeatable.

Theorem C46_repeated_trace_succeeds :
  forall asort h gen cs t t2 fuel t1, after_calls asort h gen cs t t2 ->
  trace asort h gen fuel t = TOk t1 -> exists t3, trace asort h gen fuel t2 = TOk t3.
Proof. exact repeat_succeeds. Qed.
Print Assumptions C46_repeated_trace_succeeds.

Example C46_hypotheses : forall asort, exists h t t', bench_run asort [0; 2]%nat 10 h t /\
  proper (emit 1 1) h t (map bench_shape [0; 2]%nat) /\
  trace asort h (emit 1 1) 9 t = TOk t' /\ f_rows (get_results t') = [out_row 1; back_row 1].
Proof. exact mirror_case. Qed.

(** ** C47 *)
(** Missing: rays_per_source changed between trace and calculate_source_ids. *)
Theorem C47_source_ids_partial :
  forall asort h gen fuel t t', trace asort h gen fuel t = TOk t' ->
  (forall s, In s (t_sources t) -> length (gen s (t_n t)) = t_n t) ->
  exists ids, f_source_ids (get_results (calculate_source_ids t')) = Some ids /\
    f_rows (get_results (calculate_source_ids t')) = f_rows (get_results t') /\
    length ids = length (f_rows (get_results t')) /\
    forall m w, nth_error (f_rows (get_results t')) m = Some w ->
      exists k s j c, nth_error ids m = Some (Z.of_nat k) /\ nth_error (t_sources t) k = Some s /\
        nth_error (gen s (t_n t)) j = Some c /\ row_id w = (k * t_n t + j)%nat /\ (j < t_n t)%nat.
Proof. exact source_ids_right. Qed.
Print Assumptions C47_source_ids_partial.

(** Two sources with one ray each: after set_rays_per_source 2 the ray of source 1 is
    ascribed to source 0. *)
Theorem C47_rays_per_source_changed_refuted :
  forall asort, argsort_ok asort -> exists h t t' m w,
  run_prog asort bench_calls empty_heap = Ok h /\ new_tracer h [8; 9]%nat [2%nat] 1 1 = Some t /\
  trace asort h (emit (-1) 1) 5 t = TOk t' /\ nth_error (f_rows (get_results t')) m = Some w /\
  row_id w = 1%nat /\ (forall s, length (emit (-1) 1 s (t_n t)) = 1%nat) /\
  exists ids, f_source_ids (get_results (calculate_source_ids (set_rays_per_source 2 t'))) = Some ids /\ nth_error ids m = Some 0%Z.
Proof. exact renumbered_case. Qed.
Print Assumptions C47_rays_per_source_changed_refuted.

(** ** C72 *)
(** The rows of a ray do not depend on the other rays, on the sources or on its place
    among them. *)
Theorem C72_rays_are_independent :
  forall asort h gen gen' fuel fuel' t u t' u',
  trace asort h gen fuel t = TOk t' -> trace asort h gen' fuel' u = TOk u' ->
  t_comps t = t_comps u -> t_lut t = t_lut u -> t_limit t = t_limit u ->
  forall i j c, nth_error (source_rays gen t) i = Some c -> nth_error (source_rays gen' u) j = Some c ->
  rows_with_id j (f_rows (get_results u')) = map (row_with_id j) (rows_with_id i (f_rows (get_results t'))).
Proof. exact rays_independent. Qed.
Print Assumptions C72_rays_are_independent.

Example C72_hypotheses : forall asort, exists h t t', bench_run asort [0; 2]%nat 10 h t /\
  proper (emit 1 1) h t (map bench_shape [0; 2]%nat) /\
  trace asort h (emit 1 1) 9 t = TOk t' /\ f_rows (get_results t') = [out_row 1; back_row 1].
Proof. exact mirror_case. Qed.

(** ** C73 *)
Theorem C73_rows_in_order :
  forall asort h gen fuel t t', trace asort h gen fuel t = TOk t' ->
  (forall c, In c (source_rays gen t) -> c_gen c = O) ->
  StronglySorted earlier (f_rows (get_results t')).
Proof. exact frame_in_order. Qed.
Print Assumptions C73_rows_in_order.

Example C73_hypotheses : forall asort, exists h t t', bench_run asort [0; 2]%nat 10 h t /\
  proper (emit 1 1) h t (map bench_shape [0; 2]%nat) /\
  trace asort h (emit 1 1) 9 t = TOk t' /\ f_rows (get_results t') = [out_row 1; back_row 1].
Proof. exact mirror_case. Qed.

(** ** C74 *)
Theorem C74_interactions_obey_the_optical_laws :
  forall asort, argsort_ok asort -> forall gen h t comps fuel t', proper gen h t comps ->
  trace asort h gen fuel t = TOk t' -> forall i rows, rows = rows_with_id i (f_rows (get_results t')) ->
  (forall w, nth_error rows 0 = Some w -> exists c, nth_error (source_rays gen t) i = Some c /\ first_row c w) /\
  (forall j w w', nth_error rows j = Some w -> nth_error rows (S j) = Some w' -> bounce (flat_map surface_ids comps) w w') /\
  (forall j w, nth_error rows j = Some w -> nth_error rows (S j) = None -> over asort comps (t_limit t) w).
Proof. exact proper_bounces. Qed.
Print Assumptions C74_interactions_obey_the_optical_laws.

Example C74_hypotheses : forall asort, argsort_ok asort -> exists h t t', bench_run asort [1; 2]%nat 2 h t /\
  proper (emit (-1) 1) h t (map bench_shape [1; 2]%nat) /\
  trace asort h (emit (-1) 1) 7 t = TOk t' /\ f_rows (get_results t') = [glass_row; inside_row].
Proof. exact proper_case. Qed.
