(** * Properties C56, C57, C58, C60, C92: what the mirrors and plates do to rays *)
From Coq Require Import Reals List Bool ZArith Lra.
Import ListNotations.
From Verif Require Import XR XRFacts Arr Lin LinFacts Ops Prim Csg Surf SpecGeom SpecTree CsgProps World SpecWorld Tracer
  Components SpecComponents ComponentFacts ComponentFacts2 MirrorFacts MirrorFacts2 PlateFacts MirrorFacts3 MirrorFacts4 SpecOptics OpticsExamples.
Open Scope R_scope.

(** ** C56 *)
(** A round mirror of thickness zero reflects every ray that crosses its aperture.
    Missing: rectangular apertures, for which it is false. *)
Theorem C56_thin_round_mirror_partial : forall asort d off, argsort_ok asort -> 0 < d ->
  built asort (plane_mirror 0 (Round d) off Mirror) (fun s =>
    forall c q x y z dx dy dz, c_ray c = Ray (pt x y z) (V4 dx dy dz 0) -> clear_towards (Round d) (V4 dx dy dz 0) -> dx <> 0 ->
      0 < q -> x + q * dx = 0 -> in_aperture (Round d) off (y + q * dy) (z + q * dz) ->
      exists c', bounce asort s c c' /\ direction (c_ray c') = V4 (- dx) dy dz 0 /\ origin (c_ray c') = pt 0 (y + q * dy) (z + q * dz)).
Proof. exact thin_round_hit. Qed.
Print Assumptions C56_thin_round_mirror_partial.

(** A mirror with a thickness reflects at its faces, whatever the aperture. *)
Theorem C56_thick_mirror_partial : forall asort t ap off, argsort_ok asort -> ap_ok ap -> 3 / 100000000 <= t ->
  built asort (plane_mirror t ap off Mirror) (fun s =>
    forall c sg x y z dx dy dz, c_ray c = Ray (pt x y z) (V4 dx dy dz 0) -> sg = 1 \/ sg = -1 -> 0 < sg * dx -> sg * x < - (t / 2) ->
      clear_towards ap (V4 dx dy dz 0) ->
      let q := (- sg * (t / 2) - x) / dx in
      well_inside ap off (y + q * dy) (z + q * dz) ->
      exists c', bounce asort s c c' /\ direction (c_ray c') = V4 (- dx) dy dz 0 /\ origin (c_ray c') = pt (- sg * (t / 2)) (y + q * dy) (z + q * dz)).
Proof. exact thick_flat_mirror. Qed.
Print Assumptions C56_thick_mirror_partial.

(** C56 is false for a rectangle: no ray that runs through it is ever hit. *)
Theorem C56_thin_rectangle_refuted : forall asort a b off m, argsort_ok asort -> 0 < a -> 0 < b ->
  built asort (plane_mirror 0 (Pair a b) off m) (fun s =>
    forall c x y z dx dy dz, c_ray c = Ray (pt x y z) (V4 dx dy dz 0) -> clear_towards (Pair a b) (V4 dx dy dz 0) -> dx <> 0 ->
      propagate asort [s] c = (PInf, (-1)%Z)).
Proof. exact thin_rect_missed. Qed.
Print Assumptions C56_thin_rectangle_refuted.

(** the ray from (-3, -4, 1/2) along (3/5, 4/5, 0) crosses both apertures *)
Example C56_hypotheses :
  clear_towards (Round 2) (V4 (3 / 5) (4 / 5) 0 0) /\ -3 + 5 * (3 / 5) = 0 /\ in_aperture (Round 2) (0, 0) (-4 + 5 * (4 / 5)) (1 / 2 + 5 * 0) /\
  clear_towards (Pair 2 2) (V4 (3 / 5) (4 / 5) 0 0) /\ in_open_aperture (Pair 2 2) (0, 0) (-4 + 5 * (4 / 5)) (1 / 2 + 5 * 0) /\
  well_inside (Pair 2 2) (0, 0) (-4 + 5 * (4 / 5)) (1 / 2 + 5 * 0).
Proof. exact thin_example. Qed.

(** ** C57 *)
(** A ray travelling towards -x, starting in front of the reflecting surface, inside the
    aperture, is reflected at the paraboloid and then passes through the origin.  The two
    size conditions keep clear of numpy's isclose bands. *)
Theorem C57_parallel_rays_meet_in_the_origin : forall asort f t ap off, argsort_ok asort -> ap_ok ap -> 0 < t ->
  atol < 4 * f -> 1 / 10000000 <= reach ap * reach ap / (4 * f) ->
  built asort (parabolic_mirror f t ap off Mirror) (fun s =>
    forall c x0 y z, c_ray c = Ray (pt x0 y z) (V4 (-1) 0 0 0) -> in_open_aperture ap off y z ->
      (y * y + z * z) / (4 * f) - f < x0 ->
      exists c' tau, bounce asort s c c' /\ 0 < tau /\ ray_at (c_ray c') tau = pt 0 0 0 /\
        origin (c_ray c') = pt ((y * y + z * z) / (4 * f) - f) y z /\ c_idx c' = c_idx c /\ c_int c' = c_int c).
Proof. exact para_focuses. Qed.
Print Assumptions C57_parallel_rays_meet_in_the_origin.

(** Conversely, a ray from the origin to a point of the surface leaves parallel to x. *)
Theorem C57_rays_from_the_origin_leave_parallel : forall asort f t ap off, argsort_ok asort -> ap_ok ap -> 0 < t -> 0 < f ->
  1 / 10000000 <= reach ap * reach ap / (4 * f) ->
  built asort (parabolic_mirror f t ap off Mirror) (fun s =>
    forall c y z, in_open_aperture ap off y z ->
      let w := (y * y + z * z) / (4 * f) in
      let d := V4 ((w - f) / (w + f)) (y / (w + f)) (z / (w + f)) 0 in
      c_ray c = Ray (pt 0 0 0) d -> clear_towards ap d -> clear (vy d * vy d + vz d * vz d) -> clear (4 * f * vx d) ->
      exists c', bounce asort s c c' /\ origin (c_ray c') = pt (w - f) y z /\ direction (c_ray c') = V4 1 0 0 0).
Proof. exact para_collimates. Qed.
Print Assumptions C57_rays_from_the_origin_leave_parallel.

Example C57_hypotheses :
  ap_ok (Round 2) /\ atol < 4 * 1 /\ 1 / 10000000 <= reach (Round 2) * reach (Round 2) / (4 * 1) /\
  in_open_aperture (Round 2) (3, 0) (7 / 2) (1 / 2) /\ ((7 / 2) * (7 / 2) + (1 / 2) * (1 / 2)) / (4 * 1) - 1 < 5.
Proof. exact parabolic_example. Qed.
Example C57_hypotheses_from_the_origin :
  let f := 1 in let y := 1 in let z := 1 in let w := (y * y + z * z) / (4 * f) in
  let d := V4 ((w - f) / (w + f)) (y / (w + f)) (z / (w + f)) 0 in
  in_open_aperture (Pair 4 4) (0, 0) y z /\ clear_towards (Pair 4 4) d /\ clear (vy d * vy d + vz d * vz d) /\ clear (4 * f * vx d) /\
  1 / 10000000 <= reach (Pair 4 4) * reach (Pair 4 4) / (4 * f).
Proof. exact collimate_example. Qed.

(** ** C58 *)
(** The solid: the aperture, from the back plane to the sphere with its vertex at the origin. *)
Theorem C58_aperture_minus_sphere : forall asort r t ap off m, argsort_ok asort -> ap_ok ap -> 0 <= t -> r <> 0 ->
  sqrt (fst off * fst off + snd off * snd off) + reach ap <= Rabs r ->
  built asort (spherical_mirror (Fin r) t ap off m) (occupies (fun x y z => in_aperture ap off y z /\
     if rltb 0 r then - t <= x < sag (Fin r) (y * y + z * z) else sag (Fin r) (y * y + z * z) < x <= t)).
Proof. exact spherical_solid. Qed.
Print Assumptions C58_aperture_minus_sphere.

(** A ray on a line through the centre (r, 0, 0), before it reaches the reflecting
    surface, is sent back along the same line. *)
Theorem C58_rays_through_the_centre_return : forall asort r t ap off, argsort_ok asort -> ap_ok ap -> 0 < t -> r <> 0 ->
  sqrt (fst off * fst off + snd off * snd off) + reach ap <= Rabs r ->
  built asort (spherical_mirror (Fin r) t ap off Mirror) (fun s =>
    forall c k dx dy dz, dx * dx + dy * dy + dz * dz = 1 -> clear_towards ap (V4 dx dy dz 0) -> r * dx < 0 -> k < Rabs r ->
      in_open_aperture ap off (Rabs r * dy) (Rabs r * dz) ->
      c_ray c = Ray (pt (r + k * dx) (k * dy) (k * dz)) (V4 dx dy dz 0) ->
      exists c', bounce asort s c c' /\ direction (c_ray c') = V4 (- dx) (- dy) (- dz) 0 /\
        origin (c_ray c') = pt (r + Rabs r * dx) (Rabs r * dy) (Rabs r * dz) /\ c_idx c' = c_idx c /\ c_int c' = c_int c).
Proof. exact sphere_retro. Qed.
Print Assumptions C58_rays_through_the_centre_return.

(** The infinite radius, documented to give a plane mirror, does not give a mirror. *)
Theorem C58_infinite_radius_refuted : forall t ap off m, ap_ok ap ->
  spherical_mirror PInf t ap off m = NotANumber /\ spherical_mirror MInf t ap off m = NotANumber.
Proof. exact spherical_infinite. Qed.
Print Assumptions C58_infinite_radius_refuted.

Example C58_hypotheses :
  let r := -10 in let dx := 4 / 5 in let dy := 3 / 5 in
  ap_ok (Round 2) /\ sqrt (6 * 6 + 0 * 0) + reach (Round 2) <= Rabs r /\ dx * dx + dy * dy + 0 * 0 = 1 /\
  clear_towards (Round 2) (V4 dx dy 0 0) /\ r * dx < 0 /\ 5 < Rabs r /\
  in_open_aperture (Round 2) (6, 0) (Rabs r * dy) (Rabs r * 0).
Proof. exact spherical_example. Qed.

(** ** C60 *)
(** The plate is [thick_lens(inf, inf, t)] (either sign of infinity); [sg] says from which
    side the ray comes, [n] is the index of its material at the wavelength of the ray.
    The ray enters at (y0, z0), leaves at (y1, z1), and leaves as it came. *)
Theorem C60_plate_keeps_the_direction : forall asort r1 r2 t ap idx, argsort_ok asort -> ap_ok ap -> 3 / 100000000 <= t ->
  (r1 = PInf \/ r1 = MInf) -> (r2 = PInf \/ r2 = MInf) ->
  built asort (thick_lens r1 r2 t ap (Refractor idx)) (fun s =>
    forall c sg n x y z dx dy dz, c_ray c = Ray (pt x y z) (V4 dx dy dz 0) -> c_idx c = 1 -> idx (c_wl c) = Fin n ->
      sg = 1 \/ sg = -1 -> dx * dx + dy * dy + dz * dz = 1 -> 0 < sg * dx -> sg * x < - (t / 2) -> 0 < n -> 1 - dx * dx < n * n ->
      let k := sqrt (1 - (1 - dx * dx) / (n * n)) in
      let q := (- sg * (t / 2) - x) / dx in
      let y0 := y + q * dy in let z0 := z + q * dz in
      let y1 := y0 + t / k * (dy / n) in let z1 := z0 + t / k * (dz / n) in
      clear_towards ap (V4 dx dy dz 0) -> clear_towards ap (V4 (sg * k) (dy / n) (dz / n) 0) ->
      well_inside ap (0, 0) y0 z0 -> well_inside ap (0, 0) y1 z1 ->
      exists c1 c2, bounce asort s c c1 /\ bounce asort s c1 c2 /\
        origin (c_ray c1) = pt (- sg * (t / 2)) y0 z0 /\ origin (c_ray c2) = pt (sg * (t / 2)) y1 z1 /\
        direction (c_ray c1) = V4 (sg * k) (dy / n) (dz / n) 0 /\ c_idx c1 = n /\
        direction (c_ray c2) = direction (c_ray c) /\ c_idx c2 = 1).
Proof. exact plate_keeps_direction. Qed.
Print Assumptions C60_plate_keeps_the_direction.

(** water, a ray at an angle whose tangent is 4/3 *)
Example C60_hypotheses :
  let t := 2 in let n := 4 / 3 in let dx := 3 / 5 in let dy := 4 / 5 in
  let k := sqrt (1 - (1 - dx * dx) / (n * n)) in let q := (- 1 * (t / 2) - -4) / dx in
  ap_ok (Pair 10 6) /\ 3 / 100000000 <= t /\ dx * dx + dy * dy + 0 * 0 = 1 /\ 0 < 1 * dx /\ 1 * -4 < - (t / 2) /\ 0 < n /\ 1 - dx * dx < n * n /\
  clear_towards (Pair 10 6) (V4 dx dy 0 0) /\ clear_towards (Pair 10 6) (V4 (1 * k) (dy / n) (0 / n) 0) /\
  well_inside (Pair 10 6) (0, 0) (-3 + q * dy) (1 + q * 0) /\
  well_inside (Pair 10 6) (0, 0) (-3 + q * dy + t / k * (dy / n)) (1 + q * 0 + t / k * (0 / n)).
Proof. exact plate_example. Qed.

(** ** C92 *)
(** A ray that comes parallel to the axis onto the reflecting side, at the distance [sqrt q] from the
    axis, is sent back from the sphere, and crosses the axis at [focus], which is within [q / (2 * k)]
    of the documented focal point (r/2, 0, 0).  Only the ray on the axis itself passes through that point. *)
Theorem C92_parallel_rays_cross_near_the_focal_point : forall asort r t ap off, argsort_ok asort -> ap_ok ap -> 0 < t -> r <> 0 ->
  sqrt (fst off * fst off + snd off * snd off) + reach ap <= Rabs r ->
  built asort (spherical_mirror (Fin r) t ap off Mirror) (fun s =>
    forall c x y z, in_open_aperture ap off y z ->
      let q := y * y + z * z in let k := sqrt (r * r - q) in let focus := r - r * Rabs r / (2 * k) in
      r * sag (Fin r) q < r * x -> c_ray c = Ray (pt x y z) (V4 (- (r / Rabs r)) 0 0 0) ->
      exists c', bounce asort s c c' /\ origin (c_ray c') = pt (sag (Fin r) q) y z /\ unit (direction (c_ray c')) /\ c_idx c' = c_idx c /\ c_int c' = c_int c /\
        ray_at (c_ray c') (r * r / (2 * k)) = pt focus 0 0 /\ Rabs (focus - r / 2) <= q / (2 * k) /\
        (0 < q -> forall u, ray_at (c_ray c') u <> pt (r / 2) 0 0)).
Proof. exact sphere_focus. Qed.
Print Assumptions C92_parallel_rays_cross_near_the_focal_point.

(** A concave and a convex radius; the ray 6 from the axis of a mirror of radius 10 crosses it at 15/4 instead of 5. *)
Example C92_hypotheses : ap_ok (Round 14) /\ sqrt (fst (0, 0) * fst (0, 0) + snd (0, 0) * snd (0, 0)) + reach (Round 14) <= Rabs 10 /\
  sqrt (fst (0, 0) * fst (0, 0) + snd (0, 0) * snd (0, 0)) + reach (Round 14) <= Rabs (-10) /\
  in_open_aperture (Round 14) (0, 0) 6 0 /\ 10 * sag (Fin 10) (6 * 6 + 0 * 0) < 10 * 20 /\ -10 * sag (Fin (-10)) (6 * 6 + 0 * 0) < -10 * -20 /\
  10 - 10 * Rabs 10 / (2 * sqrt (10 * 10 - (6 * 6 + 0 * 0))) = 15 / 4.
Proof.
  assert (S : sqrt (10 * 10 - (6 * 6 + 0 * 0)) = 8) by (replace (10 * 10 - (6 * 6 + 0 * 0)) with (8 * 8) by ring; apply sqrt_square; lra).
  assert (S' : sqrt (-10 * -10 - (6 * 6 + 0 * 0)) = 8) by (replace (-10 * -10 - (6 * 6 + 0 * 0)) with (8 * 8) by ring; apply sqrt_square; lra).
  cbn [ap_ok reach fst snd in_open_aperture sag]. replace (0 * 0 + 0 * 0) with 0 by ring. rewrite sqrt_0, S, S'.
  rewrite (proj2 (rltb_true 0 10)), (proj2 (rltb_false 0 (-10))) by lra. rewrite (Rabs_right 10), (Rabs_left (-10)) by lra. repeat split; lra.
Qed.
