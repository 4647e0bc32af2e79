(** * FlHits: where a traced ray meets a surface, with rounding

    The code that finds the distance to a surface and moves the ray there, with the result of every
    operation rounded by [rnd].  SIMPLIFICATION: no operation overflows; negation is exact; only finite
    distances are modelled, one entry of the arrays at a time, before they are sorted and clipped. *)
From Coq Require Import Reals List Bool Permutation.
Import ListNotations.
From Verif Require Import XR Lin Fl.
Open Scope R_scope.

Section FlHits.
  Variable rnd : R -> R.

  (** world_objects.py:368-370 [np.matmul(self._get_object_transform(), rays)] *)
  Definition fl_image (m : mat) (v v' : v4) : Prop :=
    rdot rnd (pairs (row0 m) v) (vx v') /\ rdot rnd (pairs (row1 m) v) (vy v') /\
    rdot rnd (pairs (row2 m) v) (vz v') /\ rdot rnd (pairs (row3 m) v) (vw v').

  (** [element_wise_dot] (operations.py:63-80) of the first three, and of the first two, entries *)
  Definition pairs3 (v w : v4) : list (R * R) := [(vx v, vx w); (vy v, vy w); (vz v, vz w)].
  Definition pairs2 (v w : v4) : list (R * R) := [(vx v, vx w); (vy v, vy w)].

  (** primitives.py:263, 344 and operations.py:39-41 *)
  Definition fl_disc (a b c : R) : R := rnd (rnd (b * b) - rnd (rnd (4 * a) * c)).
  (** primitives.py:264-267, 347-352 and operations.py:44-49: the root with the sign [sigma]; [den] is what
      the numerator is divided by *)
  Definition fl_root (sigma a b c den : R) : R := rnd (rnd (- b + sigma * rnd (sqrt (Rmax 0 (fl_disc a b c)))) / den).
  (** Both entries of the array of hits, where [disc >= 0] (primitives.py:270, 355 and operations.py:51) *)
  Definition fl_roots (a b c den t0 t1 : R) : Prop := 0 <= fl_disc a b c /\ t0 = fl_root 1 a b c den /\ t1 = fl_root (-1) a b c den.

  (** primitives.py:241-271 [Sphere.intersect]: a, b and c *)
  Definition fl_sphere_abc (radius : R) (o d : v4) (a b c : R) : Prop :=
    exists q cc, rdot rnd (pairs3 d d) a /\ rdot rnd (pairs3 d o) q /\ rdot rnd (pairs3 o o) cc /\
    b = rnd (2 * q) /\ c = rnd (cc - rnd (radius * radius)).
  (** the two hits, and no hit *)
  Definition fl_sphere_hits (radius : R) (o d : v4) (t0 t1 : R) : Prop :=
    exists a b c, fl_sphere_abc radius o d a b c /\ fl_roots a b c (rnd (2 * a)) t0 t1.
  Definition fl_sphere_miss (radius : R) (o d : v4) : Prop :=
    exists a b c, fl_sphere_abc radius o d a b c /\ fl_disc a b c < 0.

  (** primitives.py:655-678 [Cylinder.intersect]: the side, by [binomial_root] (operations.py:27-60)
      where [a] is not close to 0 *)
  Definition fl_side_abc (radius : R) (o d : v4) (a b c : R) : Prop :=
    exists q cc, rdot rnd (pairs2 d d) a /\ rdot rnd (pairs2 d o) q /\ rdot rnd (pairs2 o o) cc /\ isclose a 0 = false /\
    b = rnd (2 * q) /\ c = rnd (cc - rnd (radius * radius)).
  Definition fl_side_hits (radius : R) (o d : v4) (t0 t1 : R) : Prop :=
    exists a b c, fl_side_abc radius o d a b c /\ fl_roots a b c (rnd (rnd (2 * a) + 0)) t0 t1.
  Definition fl_side_miss (radius : R) (o d : v4) : Prop :=
    exists a b c, fl_side_abc radius o d a b c /\ fl_disc a b c < 0.

  (** primitives.py:322-355 [Paraboloid.intersect]: the curved part, where [a] is not close to 0 *)
  Definition fl_bowl_abc (focus : R) (o d : v4) (a b c : R) : Prop :=
    exists q cc, rdot rnd (pairs2 d d) a /\ rdot rnd (pairs2 o d) q /\ rdot rnd (pairs2 o o) cc /\ isclose a 0 = false /\
    b = rnd (rnd (2 * q) - rnd (rnd (4 * focus) * vz d)) /\ c = rnd (cc - rnd (rnd (4 * focus) * vz o)).
  Definition fl_bowl_hits (focus : R) (o d : v4) (t0 t1 : R) : Prop :=
    exists a b c, fl_bowl_abc focus o d a b c /\ fl_roots a b c (rnd (rnd (2 * a) + 0)) t0 t1.

  (** The plane where one entry of a point is [h]: primitives.py:480-483 [Plane.intersect] ([h] = 0),
      533-558 [Cube.intersect] and 379-381, 692-694 (the ends of paraboloids and cylinders).
      [o] and [d] are that entry of the origin and of the direction. *)
  Definition fl_face_hit (h o d t : R) : Prop :=
    isclose d 0 = false /\
    (t = rnd (rnd (h - o) / rnd (d + 0)) \/ t = rnd (- rnd (o - h) / rnd (d + 0)) \/ h = 0 /\ t = rnd (- o / rnd (d + 0))).

  (** _pyrayt.py:404-407: the ray moves to the hit *)
  Definition fl_move (o d : v4) (t : R) : v4 := vround rnd (vadd o (vround rnd (vscale t d))).
End FlHits.
