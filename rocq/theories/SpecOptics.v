(** * SpecOptics: angles at an interface and roots of a quadratic
    Specification only. *)
From Coq Require Import Reals List Bool.
From Verif Require Import XR Lin.
Open Scope R_scope.

(** The part of [v] perpendicular to the unit vector [n]; its length is the sine of
    the angle between [v] and [n] when [v] is a unit vector. *)
Definition tangential (v n : v4) : v4 := vsub v (vscale (vdot v n) n).
Definition unit (v : v4) : Prop := vdot v v = 1.
(** the same direction with length one *)
Definition hat (v : v4) : v4 := vscale (/ vnorm v) v.

(** The index of the medium behind the interface: leaving along the normal means
    going back to the world. *)
Definition next_index (v n : v4) (n2 n_global : R) : R :=
  if Rlt_dec 0 (vdot v n) then n_global else n2.

Definition mirrored (v d n : v4) : Prop :=
  vdot d n = - vdot v n /\ tangential d n = tangential v n.

(** [x] is a root of a x^2 + b x + c *)
Definition root_of (a b c x : R) : Prop := a * (x * x) + b * x + c = 0.
