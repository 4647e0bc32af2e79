(** * SpecFlMetBowl: points of a moved paraboloid
    Specification only. *)
From Coq Require Import Reals.
From Verif Require Import Lin SpecFlSeen.
Open Scope R_scope.

(** [q], taken relative to the vertex, lies on the paraboloid of focal length [f] that opens along [k], a direction of length 1 *)
Definition on_bowl (k : v4) (f : R) (q : v4) : Prop := off_axis k q * off_axis k q = 4 * f * vdot q k.
(** [q] is on it up to a move along the axis by at most [r] *)
Definition near_bowl (k : v4) (f : R) (q : v4) (r : R) : Prop := exists s, Rabs s <= r /\ on_bowl k f (vadd q (vscale s k)).
