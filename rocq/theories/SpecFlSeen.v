(** * SpecFlSeen: what is assumed of the inverse, and how far computed object coordinates are off
    Specification only. *)
From Coq Require Import Reals List.
Import ListNotations.
From Verif Require Import Lin.
Open Scope R_scope.

(** [X] is, up to a relative residual [rho], an inverse of [W], a placement at most [P] from the origin: what a stable solver for
    [W X = 1] gives, with the last row exact because that of [W] is 0 0 0 1 *)
Definition inverts (rho P : R) (W X : mat) : Prop :=
  row3 X = V4 0 0 0 1 /\
  (forall v, vw v = 0 -> vnorm (vsub (mapply W (mapply X v)) v) <= rho * vnorm v) /\
  vnorm (vsub (mapply W (mapply X (point 0 0 0))) (point 0 0 0)) <= rho * P.

(** [W] is the exact placement [M] up to [a] in its axes and [b] times [P] in its place, which is at most [P] from the origin *)
Definition near_placement (a b P : R) (W M : mat) : Prop :=
  row3 W = V4 0 0 0 1 /\ row3 M = V4 0 0 0 1 /\
  (forall v, vw v = 0 -> vnorm (mapply M v) = vnorm v) /\
  (forall v, vw v = 0 -> vnorm (vsub (mapply W v) (mapply M v)) <= a * vnorm v) /\
  vnorm (vsub (mapply W (point 0 0 0)) (mapply M (point 0 0 0))) <= b * P /\
  vnorm (vsub (mapply M (point 0 0 0)) (point 0 0 0)) <= P.

(** The distance of a point from the origin *)
Definition from_origin (p : v4) : R := vnorm (vsub p (point 0 0 0)).

(** The distance of a point [q], taken relative to a point of an axis in the direction [k] of length 1, from that axis *)
Definition off_axis (k q : v4) : R := vnorm (vsub q (vscale (vdot q k) k)).
(** The axes and the coordinates along them *)
Definition axes : list (v4 * (v4 -> R)) := [(vector 1 0 0, vx); (vector 0 1 0, vy); (vector 0 0 1, vz)].
(** A ray within [L] of the origin up to where it hits, seen with a rounding that does not overflow *)
Definition within_reach (lo L P : R) (o d : v4) (t : R) : Prop :=
  vw o = 1 /\ vw d = 0 /\ / 2 <= vnorm d <= 2 /\ from_origin o <= L /\ Rabs t * vnorm d <= L /\ P <= L /\ lo <= L <= / lo / 2.
