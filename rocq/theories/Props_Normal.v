(** * Properties C14..C16 and the geometric half of C18: placed surfaces *)
From Coq Require Import Reals List Bool ZArith.
Import ListNotations.
From Verif Require Import XR Lin LinFacts Prim Surf SpecGeom SpecTree SpecNormal
  BoxFacts SurfFacts NormalFacts NormalProps.
Open Scope R_scope.

(** C14.  The hits of a placed surface are the two parameters between which the world
    ray is in the placed solid. *)
Theorem C14_world_hits_delimit_the_placed_solid :
  forall s r,
  surf_ok s -> world_ray r -> good_local (s_prim s) (ray_map (s_obj s) r) ->
  (exists t0 t1, surf_hits s r = [Fin t0; Fin t1] /\ t0 <= t1 /\
     forall t, placed s (ray_at r t) <-> t0 <= t <= t1) \/
  (surf_hits s r = [PInf; PInf] /\
     forall t t', placed s (ray_at r t) -> placed s (ray_at r t') -> t = t').
Proof. exact surf_chord. Qed.
Print Assumptions C14_world_hits_delimit_the_placed_solid.

(** C14.  Each hit is the placed image of a point of the primitive's surface. *)
Theorem C14_world_hits_lie_on_the_placed_surface :
  forall s r t,
  surf_ok s -> world_ray r -> good_local (s_prim s) (ray_map (s_obj s) r) ->
  In (Fin t) (surf_hits s r) ->
  exists p, on_surface (s_prim s) p /\ mapply (s_world s) p = ray_at r t.
Proof. exact surf_hit_on_surface. Qed.
Print Assumptions C14_world_hits_lie_on_the_placed_surface.

(** C14.  For unit directions the parameter is the distance. *)
Theorem C14_hit_parameter_is_the_distance :
  forall r t, world_ray r -> vnorm (direction r) = 1 ->
  vnorm (vsub (ray_at r t) (origin r)) = Rabs t.
Proof. exact ray_distance. Qed.
Print Assumptions C14_hit_parameter_is_the_distance.

(** a paraboloid stretched by (2, 3, 5) and moved by (1, 0, 0) *)
Example C14_hypotheses :
  surf_ok stretched /\ world_ray through /\ vnorm (direction through) = 1 /\
  good_local (s_prim stretched) (ray_map (s_obj stretched) through) /\ placed stretched (ray_at through 30).
Proof.
  split; [exact stretched_ok|]. destruct through_world. split; auto. split; auto.
  split; [exact through_good|exact through_inside].
Qed.

(** C15 *)
Theorem C15_world_normals_are_unit_and_perpendicular :
  forall s p n,
  affine (s_world s) -> is_inverse (s_world s) (s_obj s) -> s_nscale s = 1 \/ s_nscale s = -1 ->
  prim_normal (s_prim s) (mapply (s_obj s) p) = Some n -> vw n = 0 -> vdot n n = 1 ->
  exists m, world_normal s p = Some m /\ vdot m m = 1 /\ vw m = 0 /\
    (forall t, vw t = 0 -> vdot n t = 0 -> vdot m (mapply (s_world s) t) = 0) /\
    0 < s_nscale s * vdot m (mapply (s_world s) n).
Proof. exact world_normal_spec. Qed.
Print Assumptions C15_world_normals_are_unit_and_perpendicular.

(** C15: inverted normals are the negatives *)
Theorem C15_inverted_normals_are_the_negatives :
  forall s p m,
  world_normal (Surf (s_id s) (s_prim s) (s_world s) (s_obj s) 1 (s_mat s)) p = Some m ->
  world_normal (Surf (s_id s) (s_prim s) (s_world s) (s_obj s) (-1) (s_mat s)) p = Some (vopp m).
Proof. exact world_normal_inverted. Qed.
Print Assumptions C15_inverted_normals_are_the_negatives.

(** C15: with the surface not inverted, the placed solid lies behind the normal *)
Theorem C15_world_normals_point_outward :
  forall s q, surf_ok s -> vw q = 1 -> s_nscale s = 1 ->
  on_surface (s_prim s) (mapply (s_obj s) q) -> off_edges (s_prim s) (mapply (s_obj s) q) ->
  exists m, world_normal s q = Some m /\ vdot m m = 1 /\ vw m = 0 /\
    forall x, placed s x -> vw x = 1 -> vdot m (vsub x q) <= 0.
Proof. exact world_normal_outward. Qed.
Print Assumptions C15_world_normals_point_outward.

Example C15_hypotheses : let q := point 5 0 5 in
  surf_ok stretched /\ s_nscale stretched = 1 /\
  vw q = 1 /\ mapply (s_obj stretched) q = point 2 0 1 /\ on_surface (s_prim stretched) (point 2 0 1) /\
  off_edges (s_prim stretched) (point 2 0 1).
Proof. split; [exact stretched_ok|]. split; [reflexivity|exact stretched_point]. Qed.

(** C16, away from edges; for cuboids also away from faces that numpy's isclose
    confuses with each other ([off_edges]); what is missing is refuted below *)
Theorem C16_primitive_normals_are_outward_partial :
  forall p x, prim_ok p -> on_surface p x -> off_edges p x ->
  exists n, prim_normal p x = Some n /\ outward p x n.
Proof. exact prim_normal_outward. Qed.
Print Assumptions C16_primitive_normals_are_outward_partial.

Example C16_hypotheses :
  prim_ok (PParaboloid 1 4) /\ on_surface (PParaboloid 1 4) (point 2 0 1) /\ off_edges (PParaboloid 1 4) (point 2 0 1).
Proof. split; [exact (proj1 stretched_ok)|exact (proj2 (proj2 stretched_point))]. Qed.

(** C16 fails for the cuboid [1000, 1000.001] x [0,1] x [0,1]: the normal in the
    middle of the face x = 1000 points into the solid *)
Theorem C16_thin_cuboid_refuted :
  exists p x n, prim_ok p /\ on_surface p x /\ prim_normal p x = Some n /\ ~ outward p x n.
Proof. exact thin_refuted. Qed.
Print Assumptions C16_thin_cuboid_refuted.

(** C18, geometric half: whatever the stored world transform, the box contains the
    placed solid and each face is touched by a placed corner *)
Theorem C18_surface_box_contains_the_placed_solid :
  forall s q, prim_ok (s_prim s) -> placed s q -> in_box (surf_box (s_prim s) (s_world s)) q.
Proof. exact surf_box_contains. Qed.
Print Assumptions C18_surface_box_contains_the_placed_solid.

Theorem C18_surface_box_is_touched_by_corners :
  forall p m,
  exists x0 x1 y0 y1 z0 z1,
  surf_box p m = Box (Fin x0, Fin x1) (Fin y0, Fin y1) (Fin z0, Fin z1) /\
  let corners := map (mapply m) (bounding_points p) in
  In x0 (map vx corners) /\ In x1 (map vx corners) /\ In y0 (map vy corners) /\ In y1 (map vy corners) /\
  In z0 (map vz corners) /\ In z1 (map vz corners).
Proof. exact surf_box_tight. Qed.
Print Assumptions C18_surface_box_is_touched_by_corners.

Example C18_hypotheses : prim_ok (s_prim stretched) /\ placed stretched (ray_at through 30).
Proof. split; [exact (proj1 stretched_ok)|exact through_inside]. Qed.
