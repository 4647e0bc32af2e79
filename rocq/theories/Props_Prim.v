(** * Properties C07..C11: the primitives' hits are exact *)
From Coq Require Import Reals List Bool Lra.
Import ListNotations.
From Verif Require Import XR XRFacts Lin Ops Prim SpecGeom PrimFacts PrimFacts2.
Open Scope R_scope.

(** C07: the two rows (far hit first, as the kernel returns them) delimit exactly the
    chord in the closed ball, and are exactly the parameters on the sphere. *)
Theorem C07_sphere_hits_exact : forall radius r, moving r ->
  answers (snd (sphere_hits radius r), fst (sphere_hits radius r))
          (fun t => solid (PSphere radius) (ray_at r t)) /\
  (forall t, on_surface (PSphere radius) (ray_at r t) <->
             Fin t = fst (sphere_hits radius r) \/ Fin t = snd (sphere_hits radius r)).
Proof. exact sphere_hits_exact. Qed.
Print Assumptions C07_sphere_hits_exact.
(** a ray that misses the unit sphere by a little, and one that crosses it *)
Example C07_hypotheses :
  moving (Ray (point (-2) (101 / 100) 0) (vector 1 0 0)) /\ moving (Ray (point (-2) (1 / 2) 0) (vector 1 0 0)).
Proof. split; unfold moving, point, vector; cbn [direction vx vy vz]; intros (H & _); lra. Qed.

(** C08 *)
Theorem C08_cube_hits_exact : forall x0 x1 y0 y1 z0 z1 r,
  moving r -> clear_ray (PCube (x0, y0, z0) (x1, y1, z1)) r ->
  let hits := prim_hits (PCube (x0, y0, z0) (x1, y1, z1)) r in
  let S t := solid (PCube (x0, y0, z0) (x1, y1, z1)) (ray_at r t) in
  (exists t0 t1, hits = (Fin t0, Fin t1) /\ t0 < t1 /\ forall t, S t <-> t0 <= t <= t1) \/
  (hits = (PInf, PInf) /\ forall t t', S t -> S t' -> t = t').
Proof. exact cube_prim_exact. Qed.
Print Assumptions C08_cube_hits_exact.
Example C08_hypotheses :
  moving (Ray (point (-2) (1/2) (1/3)) (vector 1 0 0)) /\
  clear_ray (PCube (1, 1, 1) (0, 0, 0)) (Ray (point (-2) (1/2) (1/3)) (vector 1 0 0)).
Proof.
  unfold moving, clear_ray, clear, point, vector; cbn [origin direction vx vy vz].
  split; [intros (H & _); lra|]. split; [right; unfold atol; rewrite Rabs_right; lra|auto].
Qed.

(** C09, proved outside the tolerance band: [clear_ray] asks that the squared
    direction component across the axis, and the component along it, be zero or
    above 1e-8. *)
Theorem C09_cylinder_hits_exact_partial : forall radius lo hi cap r,
  moving r -> lo <= hi -> clear_ray (PCylinder radius lo hi cap) r ->
  answers (prim_hits (PCylinder radius lo hi cap) r)
          (fun t => solid (PCylinder radius lo hi cap) (ray_at r t)).
Proof. exact cylinder_hits_exact. Qed.
Print Assumptions C09_cylinder_hits_exact_partial.

Example C09_hypotheses :
  moving (Ray (point 0 (1/2) (-3)) (vector 0 (1/1000) 1)) /\ -1 <= 1 /\
  clear_ray (PCylinder 1 (-1) 1 true) (Ray (point 0 (1/2) (-3)) (vector 0 (1/1000) 1)).
Proof.
  unfold moving, clear_ray, clear, point, vector; cbn [origin direction vx vy vz].
  split; [intros (_ & H & _); lra|]. split; [lra|].
  split; right; unfold atol; rewrite Rabs_right; lra.
Qed.

(** C09 fails in the band: a ray 0.003 degrees off the axis that crosses the whole
    cylinder is reported as a miss. *)
Theorem C09_cylinder_hits_exact_refuted :
  exists r, moving r /\
    prim_hits (PCylinder 1 (-1) 1 true) r = (PInf, PInf) /\
    forall t, 4 <= t <= 6 -> solid (PCylinder 1 (-1) 1 true) (ray_at r t).
Proof.
  exists steep_ray. split; [|split; [exact steep_ray_missed|exact steep_ray_inside]].
  unfold moving, steep_ray, vector; cbn [direction vx vy vz]. lra.
Qed.
Print Assumptions C09_cylinder_hits_exact_refuted.

(** C10 *)
Theorem C10_paraboloid_hits_exact : forall focus height r,
  moving r -> 0 < focus -> 0 < height -> clear_ray (PParaboloid focus height) r ->
  answers (prim_hits (PParaboloid focus height) r)
          (fun t => solid (PParaboloid focus height) (ray_at r t)).
Proof. exact paraboloid_hits_exact. Qed.
Print Assumptions C10_paraboloid_hits_exact.

Example C10_hypotheses :
  moving (Ray (point 0 (1/2) (-3)) (vector 0 0 1)) /\
  clear_ray (PParaboloid 1 2) (Ray (point 0 (1/2) (-3)) (vector 0 0 1)).
Proof.
  unfold moving, clear_ray, clear, point, vector; cbn [origin direction vx vy vz].
  split; [intros (_ & _ & H); lra|]. split; [left; ring|].
  split; right; unfold atol; rewrite Rabs_right; lra.
Qed.

(** C10: the constructor accepts exactly positive focus and height *)
Theorem C10_paraboloid_rejects_nonpositive : forall f h,
  prim_init (PParaboloid f h) = None <-> f <= 0 \/ h <= 0.
Proof.
  intros f h. simpl. destruct (rleb f 0) eqn:E1, (rleb h 0) eqn:E2; rhyps; simpl;
    split; intros; try discriminate; auto; lra.
Qed.
Print Assumptions C10_paraboloid_rejects_nonpositive.

(** C11 *)
Theorem C11_plane_hits_exact : forall width length r,
  0 <= width -> 0 <= length -> clear_ray (PPlane width length) r ->
  (vz (direction r) <> 0 ->
   answers (prim_hits (PPlane width length) r)
           (fun t => solid (PPlane width length) (ray_at r t)) /\
   fst (prim_hits (PPlane width length) r) = snd (prim_hits (PPlane width length) r)) /\
  (vz (direction r) = 0 -> prim_hits (PPlane width length) r = (PInf, PInf)).
Proof. exact plane_prim_exact. Qed.
Print Assumptions C11_plane_hits_exact.

Example C11_hypotheses :
  clear_ray (PPlane 1 2) (Ray (point 0 (1/2) (-3)) (vector 0 (1/10) 1)).
Proof.
  unfold clear_ray, clear, point, vector; cbn [origin direction vx vy vz].
  split; [auto|]. split; right; unfold atol; rewrite Rabs_right; lra.
Qed.

(** C07..C11: every finite hit is a point of the surface *)
Theorem C07_C11_hits_lie_on_the_surface : forall p r t,
  prim_ok p -> moving r -> clear_ray p r ->
  fst (prim_hits p r) = Fin t \/ snd (prim_hits p r) = Fin t ->
  on_surface p (ray_at r t).
Proof. exact prim_hits_surface. Qed.
Print Assumptions C07_C11_hits_lie_on_the_surface.
