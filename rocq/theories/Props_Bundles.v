(** * Property C48, exactly: which rays of a bundle coincide, and bundles of one ray *)
From Coq Require Import Reals Lra Lia List Bool ZArith.
Import ListNotations.
From Verif Require Import XR Lin World Tracer SpecTrace Sources SpecSources SourceProps BundleFacts.
Open Scope R_scope.

(** The first and the last ray of a circle coincide, and no other two do: a circle of n > 1
    rays holds n - 1 different ones. *)
Theorem C48_circle_rays_exactly : forall rnd d wl p n rays, d <> 0 -> emits rnd (CircleOfRays d) wl mid p n rays ->
  forall i j c c', nth_error rays i = Some c -> nth_error rays j = Some c' ->
  (c_ray c = c_ray c' <-> i = j \/ (i = O /\ j = (n - 1)%nat) \/ (j = O /\ i = (n - 1)%nat)).
Proof. exact circle_exactly. Qed.
Print Assumptions C48_circle_rays_exactly.
(** A circle of one ray starts at the top. *)
Theorem C48_circle_of_one_ray : forall rnd d wl p, exists c, emits rnd (CircleOfRays d) wl mid p 1 [c] /\
  c_ray c = Ray (point 0 0 (d / 2)) x_axis.
Proof. exact circle_single. Qed.
Print Assumptions C48_circle_of_one_ray.
Example C48_circle_exactly_hypotheses : 2 <> 0 /\ exists rays, emits (fun _ => 0) (CircleOfRays 2) (1/2) mid 0 5 rays /\ length rays = 5%nat.
Proof. split; [lra|]. destruct (circle_bundle (fun _ => 0) 2 (1/2) 0 5) as [rays [E [L _]]]. eauto. Qed.

(** A cone of any angle and more than one ray: where each goes, and that two coincide only
    if the cone has collapsed onto its axis. *)
Theorem C48_cone_rays_exactly : forall rnd a wl p n, (1 < n)%nat -> exists rays,
  emits rnd (ConeOfRays a) wl mid p n rays /\ length rays = n /\
  (forall k c, nth_error rays k = Some c ->
     fresh_ray wl k c /\ c_int c = 100 /\ origin (c_ray c) = point 0 0 0 /\
     let b := 2 * PI * (INR k / INR n) in
     direction (c_ray c) = vector (cos (radians a)) (sin (radians a) * sin b) (sin (radians a) * cos b)) /\
  (forall i j c c', nth_error rays i = Some c -> nth_error rays j = Some c' ->
     (c_ray c = c_ray c' <-> i = j \/ sin (radians a) = 0)).
Proof. exact cone_exactly. Qed.
Print Assumptions C48_cone_rays_exactly.
(** A cone of one ray: along the axis for angles below 90 degrees, against it beyond, and a
    ray without a direction at 90. *)
Theorem C48_cone_of_one_ray_exactly : forall rnd a wl p,
  (0 < cos (radians a) -> exists c, emits rnd (ConeOfRays a) wl mid p 1 [c] /\ fresh_ray wl 0 c /\ c_ray c = Ray (point 0 0 0) x_axis) /\
  (cos (radians a) < 0 -> exists c, emits rnd (ConeOfRays a) wl mid p 1 [c] /\ fresh_ray wl 0 c /\ c_ray c = Ray (point 0 0 0) (vopp x_axis)) /\
  (cos (radians a) = 0 -> fst (generate_rays rnd (ConeOfRays a) wl mid p 1) = [None]).
Proof. exact cone_single_cases. Qed.
Print Assumptions C48_cone_of_one_ray_exactly.
Example C48_cone_exactly_hypotheses : (1 < 6)%nat /\ 0 < cos (radians 0) /\ cos (radians 180) < 0 /\ cos (radians 90) = 0.
Proof.
  unfold radians. split; [lia|]. replace (0 * PI / 180) with 0 by field. replace (180 * PI / 180) with PI by field.
  replace (90 * PI / 180) with (PI / 2) by field. rewrite cos_0, cos_PI, cos_PI2. lra.
Qed.
