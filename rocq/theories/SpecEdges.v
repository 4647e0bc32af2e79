(** * SpecEdges: the surface points at which a primitive's normal is outward
    Specification only. *)
From Coq Require Import Reals List Bool.
From Verif Require Import XR Lin Prim SpecGeom.
Open Scope R_scope.

(** [v] is as near to [c] as the code's comparison with a face asks. *)
Definition near (v c : R) : Prop := Rabs (v - c) <= / 100000000 + / 100000 * Rabs c.

(** Along one axis, between [lo] and [hi]: a value near the upper face is on it, and
    a value near the lower face only is on that one. *)
Definition told_apart (lo hi v : R) : Prop :=
  (near v hi -> v = hi) /\ (near v lo -> ~ near v hi -> v = lo).

Definition outward_at (p : prim) (x : v4) : Prop :=
  match p with
  | PSphere _ => True
  | PCylinder r lo hi true => told_apart lo hi (vz x)
  | PCylinder r lo hi false => vx x * vx x + vy x * vy x = r * r
  | PCube (x0, y0, z0) (x1, y1, z1) =>
      told_apart (Rmin x0 x1) (Rmax x0 x1) (vx x) /\
      told_apart (Rmin y0 y1) (Rmax y0 y1) (vy x) /\
      told_apart (Rmin z0 z1) (Rmax z0 z1) (vz x)
  | PParaboloid _ h => near (vz x) h -> vz x = h
  | PPlane _ _ => True
  end.
