(** * Props_Chroma: property C115, what the colour of a ray does to its path *)
From Coq Require Import Reals List Bool ZArith Lra.
Import ListNotations.
From Verif Require Import XR Lin Csg CsgProps Prim Surf World Tracer SpecTrace Components SpecComponents Utils SpecUtils SpecGauss SpecChroma GaussExamples ChromaProps ChromaExamples.
Open Scope R_scope.

(** C115.  [s] is the thick lens as the factory makes it, of BK7, SF2 or SF5, with a convex or plane front that
    is more curved than the back; [b] is a screen across the axis anywhere behind it.  A blue and a red ray start
    at one point [y] off the axis, parallel to it.  Close enough to the axis, the height at which the blue one meets
    the screen, over [y], lies below that of the red one, by a gap that does not depend on [y]. *)
Theorem C115_short_waves_converge_more : forall asort, argsort_ok asort -> forall r1 r2 t ap g, ap_ok ap -> rim_clear ap -> lens_fits r1 r2 t (reach ap) -> g <> Ideal ->
  built asort (thick_lens r1 r2 t ap (glass_material g)) (fun s =>
  forall k1 k2 d b, curvature r1 k1 -> curvature r2 k2 -> 0 <= k1 -> k2 < k1 -> screen_at d b -> t / 2 + ray_offset_value < d ->
  forall ey ez x0 blue red, ey * ey + ez * ez = 1 -> x0 < - (t / 2) -> visible blue -> visible red -> blue < red ->
  exists gap delta, 0 < gap /\ 0 < delta /\
  forall y, 0 < Rabs y < delta ->
  forall gen h tr fuel tr' i j c c', proper gen h tr [s; b] -> (3 <= t_limit tr)%Z -> trace asort h gen fuel tr = TOk tr' ->
    nth_error (source_rays gen tr) i = Some c -> nth_error (source_rays gen tr) j = Some c' ->
    c_ray c = Ray (V4 x0 (y * ey) (y * ez) 1) (V4 1 0 0 0) -> c_ray c' = c_ray c -> c_idx c = 1 -> c_idx c' = 1 -> c_wl c = blue -> c_wl c' = red ->
  exists u0 u1 u w0 w1 w H H',
    rows_with_id i (f_rows (get_results tr')) = [u0; u1; u] /\ rows_with_id j (f_rows (get_results tr')) = [w0; w1; w] /\
    In (row_surf u) (map s_id (surface_ids b)) /\ In (row_surf w) (map s_id (surface_ids b)) /\
    row_end u = V4 d (H * ey) (H * ez) 0 /\ row_end w = V4 d (H' * ey) (H' * ez) 0 /\ H / y + gap < H' / y).
Proof. exact short_waves_converge. Qed.
Print Assumptions C115_short_waves_converge_more.

(** Behind a biconcave or plano-concave lens it is the other way round. *)
Theorem C115_short_waves_diverge_more : forall asort, argsort_ok asort -> forall r1 r2 t ap g, ap_ok ap -> rim_clear ap -> lens_fits r1 r2 t (reach ap) -> g <> Ideal ->
  built asort (thick_lens r1 r2 t ap (glass_material g)) (fun s =>
  forall k1 k2 d b, curvature r1 k1 -> curvature r2 k2 -> k1 <= 0 -> 0 <= k2 -> k1 < k2 -> screen_at d b -> t / 2 + ray_offset_value < d ->
  forall ey ez x0 blue red, ey * ey + ez * ez = 1 -> x0 < - (t / 2) -> visible blue -> visible red -> blue < red ->
  exists gap delta, 0 < gap /\ 0 < delta /\
  forall y, 0 < Rabs y < delta ->
  forall gen h tr fuel tr' i j c c', proper gen h tr [s; b] -> (3 <= t_limit tr)%Z -> trace asort h gen fuel tr = TOk tr' ->
    nth_error (source_rays gen tr) i = Some c -> nth_error (source_rays gen tr) j = Some c' ->
    c_ray c = Ray (V4 x0 (y * ey) (y * ez) 1) (V4 1 0 0 0) -> c_ray c' = c_ray c -> c_idx c = 1 -> c_idx c' = 1 -> c_wl c = blue -> c_wl c' = red ->
  exists u0 u1 u w0 w1 w H H',
    rows_with_id i (f_rows (get_results tr')) = [u0; u1; u] /\ rows_with_id j (f_rows (get_results tr')) = [w0; w1; w] /\
    In (row_surf u) (map s_id (surface_ids b)) /\ In (row_surf w) (map s_id (surface_ids b)) /\
    row_end u = V4 d (H * ey) (H * ez) 0 /\ row_end w = V4 d (H' * ey) (H' * ez) 0 /\ H' / y + gap < H / y).
Proof. exact short_waves_diverge. Qed.
Print Assumptions C115_short_waves_diverge_more.

(** In a scene whose surfaces have the same index at both wavelengths, two rays that start alike go the same way,
    whatever their colours, intensities and ids. *)
Theorem C115_colour_matters_only_through_the_index : forall asort, argsort_ok asort -> forall h gen fuel t t' comps i j c c',
  trace asort h gen fuel t = TOk t' -> scene h t comps ->
  nth_error (source_rays gen t) i = Some c -> nth_error (source_rays gen t) j = Some c' ->
  c_ray c = c_ray c' -> c_gen c = c_gen c' -> c_idx c = c_idx c' ->
  (forall s, In s (flat_map surface_ids comps) -> colour_blind (c_wl c) (c_wl c') s) ->
  Forall2 same_leg (rows_with_id i (f_rows (get_results t'))) (rows_with_id j (f_rows (get_results t'))).
Proof. exact colours_go_the_same_way. Qed.
Print Assumptions C115_colour_matters_only_through_the_index.

(** A lens of BK7, a screen at 20 and two rays [y] above the axis, blue and red *)
Example C115_hypotheses : forall asort, argsort_ok asort ->
  ap_ok (Round 2) /\ rim_clear (Round 2) /\ lens_fits (Fin 10) (Fin (-10)) 1 (reach (Round 2)) /\ BK7 <> Ideal /\
  curvature (Fin 10) (/ 10) /\ curvature (Fin (-10)) (/ -10) /\ 0 <= / 10 /\ / -10 < / 10 /\
  visible (45 / 100) /\ visible (65 / 100) /\
  (forall P, built asort (thick_lens (Fin 10) (Fin (-10)) 1 (Round 2) (glass_material BK7)) P ->
   exists h s b, run_prog asort (screen_calls ++ map (shift 1) bk7_calls) empty_heap = Ok h /\
    shape_of h 5%nat = Some s /\ shape_of h 0%nat = Some b /\ P s /\ screen_at 20 b /\
    forall y, exists t, new_tracer h [9%nat] [5; 0]%nat 1 10 = Some t /\ proper (two_rays y) h t [s; b]) /\
  forall y, map c_wl (two_rays y 9%nat 1%nat) = [45 / 100; 65 / 100] /\
    map c_ray (two_rays y 9%nat 1%nat) = let r := Ray (V4 (-5) (y * 1) (y * 0) 1) (V4 1 0 0 0) in [r; r].
Proof.
  intros asort AS. destruct lens_sizes as (A & B & C). do 3 (split; [assumption|]). split; [discriminate|].
  do 2 (split; [cbn; split; [lra|reflexivity]|]). split; [lra|]. split; [lra|]. do 2 (split; [unfold visible; lra|]).
  split; [exact (bk7_scene asort AS)|]. intro y. split; reflexivity.
Qed.
(** A plano-concave lens that fits *)
Example C115_concave : lens_fits (Fin (-10)) PInf 1 (reach (Round 2)) /\ curvature (Fin (-10)) (/ -10) /\ curvature PInf 0 /\ / -10 <= 0 /\ / -10 < 0.
Proof.
  unfold lens_fits, radius_ok, reach. rewrite (Rabs_left (-10)) by lra. repeat split; try lra.
  - intros r E P. injection E as <-. lra.
  - intros r E. discriminate.
Qed.
(** The ideal glass is the same for all colours; BK7 is not. *)
Example C115_ideal : forall wl wl' s, s_mat s = glass_material Ideal -> colour_blind wl wl' s.
Proof. intros wl wl' s E. unfold colour_blind. rewrite E. reflexivity. Qed.
Example C115_bk7 : forall s, s_mat s = glass_material BK7 -> ~ colour_blind (45 / 100) (65 / 100) s.
Proof.
  intros s E CB. unfold colour_blind in CB. rewrite E in CB. cbn [glass_material] in CB.
  destruct (UtilProps.catalogue_visible BK7 (45 / 100) ltac:(unfold visible; lra)) as (n & E1 & _).
  destruct (UtilProps.catalogue_visible BK7 (65 / 100) ltac:(unfold visible; lra)) as (m & E2 & _).
  pose proof (UtilProps.normal_dispersion BK7 (45 / 100) (65 / 100) n m ltac:(discriminate) ltac:(unfold visible; lra) ltac:(unfold visible; lra) ltac:(lra) E1 E2).
  rewrite E1, E2 in CB. injection CB as ->. lra.
Qed.
