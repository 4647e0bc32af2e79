(** * Props_Hits: the property theorems about rounded hits (C99, C100) *)
From Coq Require Import Reals List Bool ZArith Lra Lia.
Import ListNotations.
From Flocq Require Import Core.
From Verif Require Import XR Lin Fl SpecFl FlFacts FlProps FlBinary FlHits SpecFlHits FlHitsProps FlHitsOn FlHitsBowl FlHitsSure FlHitsSure2 FlHitsBinary.
Open Scope R_scope.

(** ** C99: a computed hit lies on the surface, up to rounding
    [m] is the matrix that takes the world to the object; [o'] and [d'] are the computed images of the
    ray's origin and direction; [t] is a computed distance; [fl_move rnd o d t] is the computed point the
    ray is moved to.  [S] bounds all coordinates up to there as seen from the object.  The exact image of
    the computed point is then compared with the surface. *)

(** Spheres: the square of the distance from the centre *)
Theorem C99_hits_lie_on_spheres : forall rnd lo u eta, clear lo u eta -> rounds_within u eta rnd ->
  forall m r o d o' d' t S, fl_image rnd m o o' -> fl_image rnd m d d' -> either (fl_sphere_hits rnd r o' d') t ->
  reach m o d t S -> 0 <= r <= S -> lo <= S -> entries_below m (/ lo) -> lo * lo <= from_centre d' <= / lo * / lo ->
  Rabs (from_centre (mapply m (fl_move rnd o d t)) - r * r) <= 8192 * u * (S * S).
Proof. intros rnd lo u eta CL RW m r o d o' d' t S I1 I2 H RE R L E D. exact (sphere_on rnd lo u eta CL RW m r o d o' d' t S I1 I2 H RE R L E D). Qed.
Print Assumptions C99_hits_lie_on_spheres.

(** The distance from the centre itself *)
Theorem C99_distance_from_the_sphere : forall rnd lo u eta, clear lo u eta -> rounds_within u eta rnd ->
  forall m r o d o' d' t S, fl_image rnd m o o' -> fl_image rnd m d d' -> either (fl_sphere_hits rnd r o' d') t ->
  reach m o d t S -> 0 < r <= S -> lo <= S -> entries_below m (/ lo) -> lo * lo <= from_centre d' <= / lo * / lo ->
  Rabs (sqrt (from_centre (mapply m (fl_move rnd o d t))) - r) <= 8192 * u * S * (S / r).
Proof.
  intros rnd lo u eta CL RW m r o d o' d' t S I1 I2 H RE R L E D.
  assert (B : Rabs (from_centre (mapply m (fl_move rnd o d t)) - r * r) <= 8192 * u * (S * S)) by (apply (C99_hits_lie_on_spheres rnd lo u eta CL RW m r o d o' d' t S); auto; lra).
  set (q := from_centre (mapply m (fl_move rnd o d t))) in *. assert (Q : 0 <= q) by (unfold q, from_centre; nra).
  pose proof (sqrt_pos q) as P. pose proof (sqrt_sqrt q Q) as SQ.
  assert (F : Rabs (sqrt q - r) * r <= Rabs (q - r * r)).
  { replace (q - r * r) with (sqrt q * sqrt q - r * r) by (rewrite SQ; ring). replace (sqrt q * sqrt q - r * r) with ((sqrt q - r) * (sqrt q + r)) by ring. rewrite Rabs_mult. apply Rmult_le_compat_l; [apply Rabs_pos|]. rewrite Rabs_right by lra. lra. }
  replace (8192 * u * S * (S / r)) with ((8192 * u * (S * S)) * / r) by (field; lra).
  apply Rmult_le_reg_r with r; [lra|]. rewrite Rmult_assoc, Rinv_l, Rmult_1_r by lra. lra.
Qed.
Print Assumptions C99_distance_from_the_sphere.

(** In binary64, for coordinates between 2^-255 and 2^255 *)
Theorem C99_hits_lie_on_spheres_in_binary64 : forall m r o d o' d' t S,
  fl_image binary64 m o o' -> fl_image binary64 m d d' -> either (fl_sphere_hits binary64 r o' d') t ->
  reach m o d t S -> 0 <= r <= S -> bpow radix2 (-255) <= S -> entries_below m (bpow radix2 255) ->
  bpow radix2 (-510) <= from_centre d' <= bpow radix2 510 ->
  Rabs (from_centre (mapply m (fl_move binary64 o d t)) - r * r) <= bpow radix2 (-40) * (S * S).
Proof.
  intros m r o d o' d' t S I1 I2 H RE R L E D.
  assert (IL : / lo64 = bpow radix2 255) by (unfold lo64; rewrite <- bpow_opp; reflexivity).
  replace (bpow radix2 (-40)) with (8192 * u64).
  - apply (C99_hits_lie_on_spheres binary64 lo64 u64 eta64 clear64 binary64_rounds m r o d o' d' t S); auto; rewrite IL; auto. unfold lo64. rewrite <- !bpow_plus. exact D.
  - unfold u64. change 8192 with (bpow radix2 13). rewrite <- bpow_plus. reflexivity.
Qed.
Print Assumptions C99_hits_lie_on_spheres_in_binary64.

(** A sphere of radius 1 around (0, 0, 5), met from (0, 0, 2) *)
Example C99_hits_lie_on_spheres_applies : fl_image binary64 moved (ivec 0 0 2 1) (ivec 0 0 (-3) 1) /\ fl_image binary64 moved (ivec 0 0 1 0) (ivec 0 0 1 0) /\
  either (fl_sphere_hits binary64 1 (ivec 0 0 (-3) 1) (ivec 0 0 1 0)) 2 /\ reach moved (ivec 0 0 2 1) (ivec 0 0 1 0) 2 10 /\ 0 <= 1 <= 10 /\ lo64 <= 10 /\ entries_below moved (/ lo64) /\
  lo64 * lo64 <= from_centre (ivec 0 0 1 0) <= / lo64 * / lo64.
Proof. exact sphere_case64. Qed.

(** The sides of cylinders: the square of the distance from the axis *)
Theorem C99_hits_lie_on_cylinders : forall rnd lo u eta, clear lo u eta -> rounds_within u eta rnd ->
  forall m r o d o' d' t S, fl_image rnd m o o' -> fl_image rnd m d d' -> either (fl_side_hits rnd r o' d') t ->
  reach m o d t S -> 0 <= r <= S -> lo <= S -> entries_below m (/ lo) -> from_axis d' <= / lo * / lo ->
  Rabs (from_axis (mapply m (fl_move rnd o d t)) - r * r) <= 8192 * u * (S * S).
Proof. intros rnd lo u eta CL RW m r o d o' d' t S I1 I2 H RE R L E D. exact (side_on rnd lo u eta CL RW m r o d o' d' t S I1 I2 H RE R L E D). Qed.
Print Assumptions C99_hits_lie_on_cylinders.
Example C99_hits_lie_on_cylinders_applies : fl_image binary64 mid (ivec (-3) 0 0 1) (ivec (-3) 0 0 1) /\ fl_image binary64 mid (ivec 1 0 0 0) (ivec 1 0 0 0) /\
  either (fl_side_hits binary64 1 (ivec (-3) 0 0 1) (ivec 1 0 0 0)) 2 /\ reach mid (ivec (-3) 0 0 1) (ivec 1 0 0 0) 2 10 /\ 0 <= 1 <= 10 /\ lo64 <= 10 /\ entries_below mid (/ lo64) /\
  from_axis (ivec 1 0 0 0) <= / lo64 * / lo64.
Proof. exact side_case64. Qed.

(** Paraboloids: x^2 + y^2 = 4 f z, less accurately the closer the ray is to the axis *)
Theorem C99_hits_lie_on_paraboloids : forall rnd lo u eta, clear lo u eta -> rounds_within u eta rnd ->
  forall m f o d o' d' t S, fl_image rnd m o o' -> fl_image rnd m d d' -> either (fl_bowl_hits rnd f o' d') t ->
  reach m o d t S -> lo <= f <= S -> entries_below m (/ lo) -> from_axis d' <= / lo * / lo -> Rabs (vz d') <= / lo ->
  let p := mapply m (fl_move rnd o d t) in
  Rabs (from_axis p - 4 * f * vz p) <= 32768 * u * ((S + f * Rabs (vz d') / sqrt (from_axis d')) * (S + f * Rabs (vz d') / sqrt (from_axis d'))).
Proof. intros rnd lo u eta CL RW m f o d o' d' t S I1 I2 H RE F E D Z. exact (bowl_on rnd lo u eta CL RW m f o d o' d' t S I1 I2 H RE F E D Z). Qed.
Print Assumptions C99_hits_lie_on_paraboloids.
Example C99_hits_lie_on_paraboloids_applies : fl_image binary64 mid (ivec (-3) 0 1 1) (ivec (-3) 0 1 1) /\ fl_image binary64 mid (ivec 1 0 0 0) (ivec 1 0 0 0) /\
  either (fl_bowl_hits binary64 1 (ivec (-3) 0 1 1) (ivec 1 0 0 0)) 1 /\ reach mid (ivec (-3) 0 1 1) (ivec 1 0 0 0) 1 10 /\ lo64 <= 1 <= 10 /\ entries_below mid (/ lo64) /\
  from_axis (ivec 1 0 0 0) <= / lo64 * / lo64 /\ Rabs (vz (ivec 1 0 0 0)) <= / lo64.
Proof. exact bowl_case64. Qed.

(** Planes, the faces of boxes and the flat ends: [r] is the row of [m] that gives the coordinate, [x]
    and [y] are that coordinate of the computed images *)
Theorem C99_hits_lie_on_flat_faces : forall rnd lo u eta, clear lo u eta -> rounds_within u eta rnd ->
  forall r o d x y t h S, rdot rnd (pairs r o) x -> rdot rnd (pairs r d) y -> fl_face_hit rnd h x y t ->
  terms r o d t <= S -> Rabs h <= S -> lo <= S -> Rabs (vx r) <= / lo -> Rabs (vy r) <= / lo -> Rabs (vz r) <= / lo -> Rabs (vw r) <= / lo -> Rabs y <= / lo ->
  Rabs (vdot r (fl_move rnd o d t) - h) <= 32 * u * S.
Proof. intros rnd lo u eta CL RW r o d x y t h S H1 H2 H3 T A L X Y Z W B. exact (face_on rnd lo u eta CL RW r o d t x y h S H1 H2 H3 T A L X Y Z W B). Qed.
Print Assumptions C99_hits_lie_on_flat_faces.
Example C99_hits_lie_on_flat_faces_applies : rdot binary64 (pairs (row2 mid) (ivec 0 0 0 1)) 0 /\ rdot binary64 (pairs (row2 mid) (ivec 0 0 1 0)) 1 /\ fl_face_hit binary64 2 0 1 2 /\
  terms (row2 mid) (ivec 0 0 0 1) (ivec 0 0 1 0) 2 <= 10.
Proof. exact face_case64. Qed.

(** ** C100: rounding neither invents nor loses clear crossings
    [o] and [d] are the computed origin and direction seen from the object. *)

(** Every evaluation of the discriminant either gives two hits or none *)
Theorem C100_two_hits_or_none : forall rnd r o d,
  (forall a b c, fl_sphere_abc rnd r o d a b c -> (exists t0 t1, fl_sphere_hits rnd r o d t0 t1) \/ fl_sphere_miss rnd r o d) /\
  (forall a b c, fl_side_abc rnd r o d a b c -> (exists t0 t1, fl_side_hits rnd r o d t0 t1) \/ fl_side_miss rnd r o d).
Proof.
  intros rnd r o d. split; intros a b c H; (destruct (Rle_or_lt 0 (fl_disc rnd a b c)) as [P | P]; [left; do 2 eexists; exists a, b, c; split; [exact H|split; [exact P|split; reflexivity]]|right; exists a, b, c; auto]).
Qed.
Print Assumptions C100_two_hits_or_none.

(** A line that goes 128 roundings deep into a sphere hits it; one that stays that far outside does not *)
Theorem C100_clear_crossings_of_spheres : forall rnd lo u eta, clear lo u eta -> 0 < u -> rounds_within u eta rnd ->
  forall o d r S, lo * lo <= from_centre d <= / lo * / lo -> from_centre o <= S * S -> 0 <= r <= S -> lo <= S ->
  ((exists t, from_centre (vadd o (vscale t d)) <= r * r - 128 * u * (S * S)) -> ~ fl_sphere_miss rnd r o d) /\
  ((forall t, r * r + 128 * u * (S * S) <= from_centre (vadd o (vscale t d))) -> forall t0 t1, ~ fl_sphere_hits rnd r o d t0 t1).
Proof. intros rnd lo u eta CL UP RW o d r S HD HO HR HS. split; [exact (sphere_found rnd lo u eta CL UP RW o d r S HD HO HR HS)|exact (sphere_missed rnd lo u eta CL UP RW o d r S HD HO HR HS)]. Qed.
Print Assumptions C100_clear_crossings_of_spheres.

(** A ray that starts clearly outside and does not come nearer finds the sphere behind it only, so it is
    not hit again; one that starts clearly inside finds one hit before it and one behind *)
Theorem C100_sides_of_spheres : forall rnd lo u eta, clear lo u eta -> 0 < u -> rounds_within u eta rnd ->
  forall o d r S, lo * lo <= from_centre d <= / lo * / lo -> from_centre o <= S * S -> 0 <= r <= S -> lo <= S ->
  (r * r + 256 * u * (S * S) <= from_centre o -> 0 <= vx d * vx o + vy d * vy o + vz d * vz o -> forall t0 t1, fl_sphere_hits rnd r o d t0 t1 -> t0 < 0 /\ t1 < 0) /\
  (from_centre o <= r * r - 256 * u * (S * S) -> ~ fl_sphere_miss rnd r o d /\ forall t0 t1, fl_sphere_hits rnd r o d t0 t1 -> t1 < 0 < t0).
Proof. intros rnd lo u eta CL UP RW o d r S HD HO HR HS. split; [exact (sphere_behind rnd lo u eta CL UP RW o d r S HD HO HR HS)|exact (sphere_within rnd lo u eta CL UP RW o d r S HD HO HR HS)]. Qed.
Print Assumptions C100_sides_of_spheres.

(** The same for the sides of cylinders *)
Theorem C100_clear_crossings_of_cylinders : forall rnd lo u eta, clear lo u eta -> 0 < u -> rounds_within u eta rnd ->
  forall o d r S, from_axis d <= / lo * / lo -> from_axis o <= S * S -> 0 <= r <= S -> lo <= S ->
  ((exists t, from_axis (vadd o (vscale t d)) <= r * r - 128 * u * (S * S)) -> ~ fl_side_miss rnd r o d) /\
  ((forall t, r * r + 128 * u * (S * S) <= from_axis (vadd o (vscale t d))) -> forall t0 t1, ~ fl_side_hits rnd r o d t0 t1).
Proof. intros rnd lo u eta CL UP RW o d r S HD HO HR HS. split; [exact (side_found rnd lo u eta CL UP RW o d r S HD HO HR HS)|exact (side_missed rnd lo u eta CL UP RW o d r S HD HO HR HS)]. Qed.
Print Assumptions C100_clear_crossings_of_cylinders.
Theorem C100_sides_of_cylinders : forall rnd lo u eta, clear lo u eta -> 0 < u -> rounds_within u eta rnd ->
  forall o d r S, from_axis d <= / lo * / lo -> from_axis o <= S * S -> 0 <= r <= S -> lo <= S ->
  (r * r + 256 * u * (S * S) <= from_axis o -> 0 <= vx d * vx o + vy d * vy o -> forall t0 t1, fl_side_hits rnd r o d t0 t1 -> t0 < 0 /\ t1 < 0) /\
  (from_axis o <= r * r - 256 * u * (S * S) -> ~ fl_side_miss rnd r o d /\ forall t0 t1, fl_side_hits rnd r o d t0 t1 -> t1 < 0 < t0).
Proof. intros rnd lo u eta CL UP RW o d r S HD HO HR HS. split; [exact (side_behind rnd lo u eta CL UP RW o d r S HD HO HR HS)|exact (side_within rnd lo u eta CL UP RW o d r S HD HO HR HS)]. Qed.
Print Assumptions C100_sides_of_cylinders.

(** Binary64 rounds so; the ray from (0, 0, -3) along z goes right through a sphere of radius 1, and its hits
    exist; the ray from (0, 0, 3) leaves it behind; the ray from the centre is inside; the ray from (0, 2, -3) along z
    passes it *)
Example C100_clear_crossings_of_spheres_applies : clear lo64 u64 eta64 /\ 0 < u64 /\ rounds_within u64 eta64 binary64 /\
  lo64 * lo64 <= from_centre (ivec 0 0 1 0) <= / lo64 * / lo64 /\ from_centre (ivec 0 0 (-3) 1) <= 4 * 4 /\ 0 <= 1 <= 4 /\ lo64 <= 4 /\
  from_centre (vadd (ivec 0 0 (-3) 1) (vscale 3 (ivec 0 0 1 0))) <= 1 * 1 - 128 * u64 * (4 * 4) /\ fl_sphere_hits binary64 1 (ivec 0 0 (-3) 1) (ivec 0 0 1 0) 4 2 /\
  (from_centre (ivec 0 2 (-3) 1) <= 4 * 4 /\ forall t, 1 * 1 + 128 * u64 * (4 * 4) <= from_centre (vadd (ivec 0 2 (-3) 1) (vscale t (ivec 0 0 1 0)))) /\
  (1 * 1 + 256 * u64 * (4 * 4) <= from_centre (ivec 0 0 3 1) /\ 0 <= 0 * 0 + 0 * 0 + 1 * 3) /\ from_centre (ivec 0 0 0 1) <= 1 * 1 - 256 * u64 * (4 * 4).
Proof.
  pose proof lo64_small as L. pose proof lo64_sqr as (A & B & D). pose proof u64_small as U. unfold from_centre, ivec, vadd, vscale. cbn [vx vy vz vw].
  split; [exact clear64|]. split; [exact u64_pos|]. split; [exact binary64_rounds|]. split; [lra|]. split; [lra|]. split; [lra|]. split; [lra|]. split; [lra|].
  split; [exact sphere_hits64|]. split; [split; [lra|intro t; pose proof (Rle_0_sqr (-3 + t * 1)) as Q; unfold Rsqr in Q; lra]|]. split; [split; lra|lra].
Qed.
(** The ray from (-3, 0, 0) along x goes through a cylinder of radius 1 *)
Example C100_clear_crossings_of_cylinders_applies : from_axis (ivec 1 0 0 0) <= / lo64 * / lo64 /\ from_axis (ivec (-3) 0 0 1) <= 4 * 4 /\
  from_axis (vadd (ivec (-3) 0 0 1) (vscale 3 (ivec 1 0 0 0))) <= 1 * 1 - 128 * u64 * (4 * 4) /\ fl_side_hits binary64 1 (ivec (-3) 0 0 1) (ivec 1 0 0 0) 4 2 /\
  (1 * 1 + 256 * u64 * (4 * 4) <= from_axis (ivec 3 0 0 1) /\ 0 <= 1 * 3 + 0 * 0) /\ from_axis (ivec 0 0 0 1) <= 1 * 1 - 256 * u64 * (4 * 4).
Proof.
  pose proof lo64_sqr as (A & B & D). pose proof u64_small as U. unfold from_axis, ivec, vadd, vscale. cbn [vx vy vz vw].
  split; [lra|]. split; [lra|]. split; [lra|]. split; [exact side_hits64|]. split; [split; lra|lra].
Qed.
