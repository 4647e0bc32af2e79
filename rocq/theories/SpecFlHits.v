(** * SpecFlHits: how large the numbers of an intersection are
    Specification only. *)
From Coq Require Import Reals List Bool.
From Verif Require Import XR Lin.
Open Scope R_scope.

(** [S] bounds the coordinates, seen from the object whose matrix is [m], of everything between the
    origin [o] and the point at distance [t] along [d]: the terms of the sums are taken without signs *)
Definition terms (r o d : v4) (t : R) : R :=
  Rabs (vx r) * (Rabs (vx o) + Rabs (t * vx d)) + Rabs (vy r) * (Rabs (vy o) + Rabs (t * vy d)) +
  Rabs (vz r) * (Rabs (vz o) + Rabs (t * vz d)) + Rabs (vw r) * (Rabs (vw o) + Rabs (t * vw d)).
Definition reach (m : mat) (o d : v4) (t S : R) : Prop :=
  terms (row0 m) o d t <= S /\ terms (row1 m) o d t <= S /\ terms (row2 m) o d t <= S.
(** No entry of the first three rows of [m] exceeds [K] *)
Definition entries_below (m : mat) (K : R) : Prop := forall r, r = row0 m \/ r = row1 m \/ r = row2 m ->
  Rabs (vx r) <= K /\ Rabs (vy r) <= K /\ Rabs (vz r) <= K /\ Rabs (vw r) <= K.
(** The square of the distance from the centre, and from the z axis *)
Definition from_centre (p : v4) : R := vx p * vx p + vy p * vy p + vz p * vz p.
Definition from_axis (p : v4) : R := vx p * vx p + vy p * vy p.
(** Rounding without overflow and, for numbers of a size between [lo] and [/ lo], without underflow *)
Definition clear (lo u eta : R) : Prop := 0 < lo <= / 1000000000 /\ 0 <= u <= / 1000000 /\ 0 <= eta <= u * lo ^ 4.
(** [t] is one of the two hits *)
Definition either (hits : R -> R -> Prop) (t : R) : Prop := exists t', hits t t' \/ hits t' t.
