(** * SpecFlStep: how fast a ray leaves a surface
    Specification only.  [m] takes the world to the object, [p] is a point, [v] a direction. *)
From Coq Require Import Reals ZArith.
From Flocq Require Import Core.
From Verif Require Import Lin SpecFl.
Open Scope R_scope.

(** Half the rate at which the square of the distance from the centre, or from the z axis,
    grows at [p] along [v]: on a sphere of radius r it is r times the cosine of the angle
    with the normal, if [m] keeps distances and [v] has length 1 *)
Definition rate_from_centre (m : mat) (p v : v4) : R :=
  let P := mapply m p in let V := mapply m v in vx P * vx V + vy P * vy V + vz P * vz V.
Definition rate_from_axis (m : mat) (p v : v4) : R :=
  let P := mapply m p in let V := mapply m v in vx P * vx V + vy P * vy V.

(** A coordinate [x], a number of binary64, that is 2^35 or more from 0, or along which the
    ray does not move; [y] is the direction's coordinate *)
Definition stays (x y : R) : Prop := binary64 x = x /\ (y = 0 \/ bpow radix2 35 <= Rabs x /\ Rabs y <= 1.1).
