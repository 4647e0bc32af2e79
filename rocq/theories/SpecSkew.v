(** * SpecSkew: what rays keep where the surfaces are symmetric
    Specification only. *)
From Coq Require Import Reals List Bool ZArith.
From Verif Require Import XR Lin Prim Csg Surf World Tracer SpecTrace.
Open Scope R_scope.

(** The moment, about the axis through [q] in direction [e], of the vector [d] standing at the point [p]:
    e . ((p - q) x d).  It is zero exactly if the line through [p] along [d] meets the axis or is parallel to it. *)
Definition moment (q e p d : v4) : R :=
  let a := vsub p q in
  vx e * (vy a * vz d - vz a * vy d) + vy e * (vz a * vx d - vx a * vz d) + vz e * (vx a * vy d - vy a * vx d).

(** The row ends on a surface whose normal there is at right angles to [e], as on a surface drawn out along [e]. *)
Definition ends_along (surfaces : list surf) (e : v4) (w : row) : Prop :=
  exists s n, In s surfaces /\ s_id s = row_surf w /\ world_normal s (here (row_end w)) = Some n /\ vdot e n = 0.
(** The row ends on a surface whose normal there meets the axis, or is parallel to it, as on a surface turned about it. *)
Definition ends_about (surfaces : list surf) (q e : v4) (w : row) : Prop :=
  exists s n, In s surfaces /\ s_id s = row_surf w /\ world_normal s (here (row_end w)) = Some n /\ moment q e (row_end w) n = 0.

(** Every normal of the surface meets the x axis or is parallel to it. *)
Definition round_about_x (s : surf) : Prop :=
  forall p n, vw p = 1 -> world_normal s p = Some n -> moment (V4 0 0 0 1) (V4 1 0 0 0) p n = 0.

(** The skewness of a row about the x axis: the index times (y dz - z dy), for its start and its direction *)
Definition twist (w : row) : R := row_idx w * (vy (row_start w) * vz (row_tilt w) - vz (row_start w) * vy (row_tilt w)).
