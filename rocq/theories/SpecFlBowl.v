(** * SpecFlBowl: how fast a ray leaves a paraboloid
    Specification only.  [m] takes the world to the object, [p] is a point, [v] a direction. *)
From Coq Require Import Reals.
From Verif Require Import Lin SpecFlHits.
Open Scope R_scope.

(** The paraboloid of focal length [f] is where this is 0; it is negative inside *)
Definition from_bowl (f : R) (p : v4) : R := from_axis p - 4 * f * vz p.
(** Half the rate at which it grows at [p] along [v] *)
Definition rate_from_bowl (m : mat) (f : R) (p v : v4) : R :=
  let P := mapply m p in let V := mapply m v in vx P * vx V + vy P * vy V - 2 * f * vz V.
(** How far along the axis a ray along [d] goes while it goes one focal length across *)
Definition climb (f : R) (d : v4) : R := f * Rabs (vz d) / sqrt (from_axis d).
