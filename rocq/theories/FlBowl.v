(** * FlBowl: where a traced ray misses a paraboloid, or runs along its axis, with rounding

    SIMPLIFICATION: as in FlHits.v. *)
From Coq Require Import Reals.
From Verif Require Import XR Lin Fl FlHits.
Open Scope R_scope.

(** primitives.py:344-355 [Paraboloid.intersect]: no hit, where [disc < 0] *)
Definition fl_bowl_miss (rnd : R -> R) (focus : R) (o d : v4) : Prop :=
  exists a b c, fl_bowl_abc rnd focus o d a b c /\ fl_disc rnd a b c < 0.
(** primitives.py:331-341 and 357-363: the hit of a ray along the axis, where [a] is close to 0 and [b] is not *)
Definition fl_bowl_line (rnd : R -> R) (focus : R) (o d : v4) (t : R) : Prop :=
  exists a q cc b c, rdot rnd (pairs2 d d) a /\ rdot rnd (pairs2 o d) q /\ rdot rnd (pairs2 o o) cc /\ isclose a 0 = true /\
  b = rnd (rnd (2 * q) - rnd (rnd (4 * focus) * vz d)) /\ c = rnd (cc - rnd (rnd (4 * focus) * vz o)) /\ isclose b 0 = false /\ t = rnd (- c / rnd (b + 0)).
