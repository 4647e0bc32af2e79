(** * SpecNormal: outward normals
    Specification only. *)
From Coq Require Import Reals List Bool.
From Verif Require Import XR Lin Prim SpecGeom.
Open Scope R_scope.

(** [n] is a unit vector and the whole (convex) solid lies behind the plane through
    [x] with normal [n]. *)
Definition outward (p : prim) (x n : v4) : Prop :=
  vdot n n = 1 /\ vw n = 0 /\ forall q, solid p q -> vdot n (vsub q x) <= 0.

(** [v] close to [c] in numpy's sense only if equal to it. *)
Definition off_band (v c : R) : Prop := isclose v c = true -> v = c.

(** The points at which the normal of each primitive is claimed to be right. *)
Definition off_edges (p : prim) (x : v4) : Prop :=
  match p with
  | PSphere _ => True
  | PCylinder r lo hi cap =>
      off_band (vz x) lo /\ off_band (vz x) hi /\ (cap = true \/ vx x * vx x + vy x * vy x = r * r)
  | PCube (x0, y0, z0) (x1, y1, z1) =>
      (off_band (vx x) x0 /\ off_band (vx x) x1 /\ x0 <> x1) /\
      (off_band (vy x) y0 /\ off_band (vy x) y1 /\ y0 <> y1) /\
      (off_band (vz x) z0 /\ off_band (vz x) z1 /\ z0 <> z1)
  | PParaboloid _ h => off_band (vz x) h
  | PPlane _ _ => True
  end.
