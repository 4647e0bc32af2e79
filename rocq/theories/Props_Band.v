(** * Props_Band: rays that are almost parallel to a face or an axis *)
From Coq Require Import Reals List Bool ZArith.
Import ListNotations.
From Verif Require Import XR Ops SpecOptics Csg SpecCsg CsgProps Lin Prim Surf SpecGeom SpecTree SpecSeen World SpecWorld WorldFacts4 SeenProps Components SpecComponents SpecBand BandFacts
  BandLens BandProps BandTree.
Open Scope R_scope.

(** ** C103 *)
(** For every successful program, every object it makes and every ray, however it is directed:
    the hits delimit the times [told_tree] describes.  Unlike C04 and C102 this needs no
    assumption that the ray is exactly parallel or clearly not parallel to faces and axes. *)
Theorem C103_hits_for_every_ray :
  forall asort, argsort_ok asort ->
  forall cs h l s, Forall ok_call cs -> run_prog asort cs empty_heap = Ok h -> shape_of h l = Some s ->
  forall asort' r, argsort_ok asort' -> world_ray r -> steady_tree s r ->
  exists L, forall t, ~ In t L ->
    (inside_at xsle (Fin t) (fst (shape_intersect asort' s r)) = true <-> told_tree s r t).
Proof. exact built_told. Qed.
Print Assumptions C103_hits_for_every_ray.

(** A ray 1e-9 off the x axis, which C04 and C102 leave out, and the union of two cuboids *)
Example C103_case : forall asort, argsort_ok asort -> exists h s, run_prog asort two_calls empty_heap = Ok h /\ shape_of h 2%nat = Some s /\
  Forall ok_call two_calls /\ world_ray grazing /\ steady_tree s grazing /\ ~ good_ray s grazing /\ told_tree s grazing (15/2).
Proof. exact grazing_case. Qed.

(** For rays outside the band it is the solid itself that is told. *)
Theorem C103_told_is_the_solid : forall p r, prim_ok p -> moving r -> good_local p r ->
  steady p r /\ forall t, told p r t <-> solid p (ray_at r t).
Proof. intros p r OK M G. split; [exact (good_steady p r OK M G)|]. intro t. exact (told_solid p r t G). Qed.
Print Assumptions C103_told_is_the_solid.
Example C103_told_case : prim_ok (PParaboloid 1 2) /\ moving (Ray (point 0 0 5) (vector 0 (3/5) (- (4/5)))) /\
  good_local (PParaboloid 1 2) (Ray (point 0 0 5) (vector 0 (3/5) (- (4/5)))).
Proof. exact bowl_good. Qed.

(** A cuboid treats every ray as if the parts of its direction that are at most 1e-8 were 0. *)
Theorem C103_cube : forall x0 x1 y0 y1 z0 z1 r, moving (straightened r) ->
  let hits := prim_hits (PCube (x0, y0, z0) (x1, y1, z1)) r in
  let S t := solid (PCube (x0, y0, z0) (x1, y1, z1)) (ray_at (straightened r) t) in
  ((exists t0 t1, hits = (Fin t0, Fin t1) /\ t0 < t1 /\ forall t, S t <-> t0 <= t <= t1) \/
   (hits = (PInf, PInf) /\ forall t t', S t -> S t' -> t = t')) /\
  forall t, within_each (/ 100000000 * Rabs t) (ray_at (straightened r) t) (ray_at r t).
Proof. intros x0 x1 y0 y1 z0 z1 r M hits S. split; [exact (cube_every x0 x1 y0 y1 z0 z1 r M)|exact (straightened_near r)]. Qed.
Print Assumptions C103_cube.
Example C103_cube_case : moving (straightened grazing) /\ direction (straightened grazing) <> direction grazing.
Proof. exact grazing_moves. Qed.

(** So does a plane; rays that run along it count as missing it. *)
Theorem C103_plane : forall w l r, 0 <= w -> 0 <= l ->
  (/ 100000000 < Rabs (vz (direction r)) ->
     answers (prim_hits (PPlane w l) r) (fun t => solid (PPlane w l) (ray_at (straightened r) t)) /\
     fst (prim_hits (PPlane w l) r) = snd (prim_hits (PPlane w l) r)) /\
  (Rabs (vz (direction r)) <= / 100000000 -> prim_hits (PPlane w l) r = (PInf, PInf)).
Proof. exact plane_every. Qed.
Print Assumptions C103_plane.

(** A cylinder: rays that are clearly not along its axis are met exactly, up to their part along
    the axis; rays along it are met as if they were exactly parallel, but only while they keep
    their distance from it; all others get one point, or none, although they may cross the
    whole cylinder. *)
Theorem C103_cylinder : forall rad lo hi cap r, lo <= hi ->
  let hits := prim_hits (PCylinder rad lo hi cap) r in
  let inside_cylinder q := solid (PCylinder rad lo hi cap) q in
  (/ 100000000 < across r -> answers hits (fun t => inside_cylinder (ray_at (flattened r) t))) /\
  (across r <= / 100000000 -> Rabs (approach r) <= / 100000000 -> / 100000000 < Rabs (vz (direction r)) ->
     answers hits (fun t => inside_cylinder (ray_at (axial r) t))) /\
  (across r <= / 100000000 -> / 100000000 < Rabs (approach r) ->
     exists t, approach r * t + (vx (origin r) * vx (origin r) + vy (origin r) * vy (origin r) - rad * rad) = 0 /\
     ((hits = (Fin t, Fin t) /\ lo <= vz (ray_at (flattened r) t) <= hi) \/
      (hits = (PInf, PInf) /\ ~ lo <= vz (ray_at (flattened r) t) <= hi))).
Proof.
  intros rad lo hi cap r L hits ic. split; [exact (cylinder_steep rad lo hi cap r L)|].
  split; [exact (cylinder_along rad lo hi cap r L)|exact (cylinder_glance rad lo hi cap r L)].
Qed.
Print Assumptions C103_cylinder.

(** A paraboloid: along its axis it is replaced by its tangent there. *)
Theorem C103_paraboloid : forall f h r, 0 < f -> 0 < h ->
  let hits := prim_hits (PParaboloid f h) r in
  (/ 100000000 < across r -> answers hits (fun t => bowl_height f (ray_at r t) <= 0 /\ 0 <= vz (ray_at (flattened r) t) <= h)) /\
  (across r <= / 100000000 -> / 100000000 < Rabs (vz (direction r)) -> / 100000000 < Rabs (fall f r) -> fall f r * vz (direction r) < 0 ->
     answers hits (fun t => fall f r * t + bowl_height f (origin r) <= 0 /\ 0 <= vz (ray_at r t) <= h)).
Proof. intros f h r F H. split; [exact (bowl_steep f h r F H)|exact (bowl_along f h r F H)]. Qed.
Print Assumptions C103_paraboloid.
(** rays of each kind *)
Example C103_kinds :
  / 100000000 < across slanted /\
  across upright <= / 100000000 /\ Rabs (approach upright) <= / 100000000 /\ / 100000000 < Rabs (vz (direction upright)) /\
  across leaning <= / 100000000 /\ / 100000000 < Rabs (approach leaning) /\ / 100000000 < Rabs (vz (direction leaning)) /\
  / 100000000 < Rabs (fall 1 leaning) /\ fall 1 leaning * vz (direction leaning) < 0.
Proof. exact kinds_case. Qed.

(** Lenses with a round aperture therefore vanish for rays almost along x that change their
    distance from the axis: at no time does such a ray count as inside. *)
Theorem C103_round_lenses_vanish : forall asort, argsort_ok asort -> forall d t m, 0 < d -> 0 <= t ->
  let vanishes s := forall r, vw (origin r) = 1 -> vw (direction r) = 0 -> almost_along_x r ->
    forall u, inside_at xsle (Fin u) (fst (shape_intersect asort s r)) = false in
  (forall r1 r2, radius_ok r1 (d / 2) -> radius_ok r2 (d / 2) -> built asort (thick_lens r1 r2 t (Round d) m) vanishes) /\
  (forall r1 r2, r1 <> 0 -> r2 <> 0 -> built asort (biconvex_lens (Fin r1) (Fin r2) t (Round d) m) vanishes) /\
  (forall r, r <> 0 -> built asort (plano_convex_lens (Fin r) t (Round d) m) vanishes).
Proof.
  intros asort AS d t m D T v. split; [intros; apply thick_overlooked; auto|].
  split; [intros; apply biconvex_overlooked; auto|intros; apply plano_overlooked; auto].
Qed.
Print Assumptions C103_round_lenses_vanish.
(** The ray from (-20, 1, 0) along (1, 1/20000, 0) runs through the middle of the lens with radii 10
    and aperture 4 *)
Theorem C103_lenses_are_seen_refuted : forall asort m, argsort_ok asort ->
  vw (origin tilted) = 1 /\ vw (direction tilted) = 0 /\ almost_along_x tilted /\
  built asort (biconvex_lens (Fin 10) (Fin 10) 1 (Round 4) m) (fun s =>
    (forall t, 199 / 10 <= t <= 201 / 10 -> inside s (ray_at tilted t)) /\
    forall t, inside_at xsle (Fin t) (fst (shape_intersect asort s tilted)) = false).
Proof. intros asort m AS. destruct tilted_almost as (A & B & C). split; [exact A|]. split; [exact B|]. split; [exact C|]. exact (lens_missed asort m AS). Qed.
Print Assumptions C103_lenses_are_seen_refuted.

(** ** C32, C33 and C12, for all arguments *)
(** C32: what becomes of a leading coefficient that is too small *)
Theorem C32_small_leading_coefficients_partial : forall a b c, Rabs a <= / 100000000 ->
  (Rabs b <= / 100000000 -> binomial_root a b c = binomial_root 0 0 c) /\
  (/ 100000000 < Rabs b -> exists t, binomial_root a b c = (Fin t, Fin t) /\ b * t + c = 0).
Proof. exact binomial_band. Qed.
Print Assumptions C32_small_leading_coefficients_partial.

(** C33: the answer is the smallest root that is not negative; it is inf if there is none, and
    otherwise only if a < 0 and the roots have opposite signs *)
Theorem C33_all_quadratics_partial : forall a b c, / 100000000 < Rabs a ->
  ((exists x, smallest_positive_root a b c = Fin x /\ root_of a b c x /\ 0 <= x /\ forall y, root_of a b c y -> 0 <= y -> x <= y) \/
   (smallest_positive_root a b c = PInf /\ ((forall y, root_of a b c y -> y < 0) \/ a < 0 /\ exists x y, root_of a b c x /\ root_of a b c y /\ x < 0 <= y))) /\
  (a < 0 -> forall x y, root_of a b c x -> root_of a b c y -> x < 0 <= y -> smallest_positive_root a b c = PInf).
Proof.
  intros a b c A. split; [exact (spr_every a b c A)|]. intros L x y X Y O. apply (spr_opposite a b c x y); auto.
  rewrite Rabs_left in A by exact L. now apply Ropp_lt_cancel; rewrite Ropp_involutive.
Qed.
Print Assumptions C33_all_quadratics_partial.
(** Linear equations always get 0 *)
Theorem C33_linear_equations_refuted : forall b c, smallest_positive_root 0 b c = Fin 0.
Proof. exact spr_linear. Qed.
Print Assumptions C33_linear_equations_refuted.
Example C33_linear_case : root_of 0 2 (-6) 3 /\ ~ root_of 0 2 (-6) 0.
Proof. exact linear_case. Qed.

(** C12: exactly which hit a paraboloid reports for a ray that goes nowhere *)
Theorem C12_dead_rays_in_paraboloids_partial : forall f h r, vx (direction r) = 0 -> vy (direction r) = 0 -> vz (direction r) = 0 ->
  (0 <= vz (origin r) <= h -> prim_hits (PParaboloid f h) r = (Fin (- bowl_height f (origin r)), PInf)) /\
  (~ 0 <= vz (origin r) <= h -> prim_hits (PParaboloid f h) r = (PInf, PInf)).
Proof. exact bowl_dead. Qed.
Print Assumptions C12_dead_rays_in_paraboloids_partial.
