(** * SpecShapes: which solid each call asks for.  Specification only. *)
From Coq Require Import Reals List Bool.
Import ListNotations.
From Verif Require Import XR Lin Prim Shapes.
Open Scope R_scope.

(** [z] lies between [a] and [b], whichever is larger *)
Definition within (a b z : R) : Prop := a <= z <= b \/ b <= z <= a.
(** [x] is at most half of [side], whatever its sign, from 0 *)
Definition half_of (side x : R) : Prop := 2 * Rabs x <= Rabs side.

(** The solid (for XYPlane the piece of a plane) that a call asks for, in the object's own coordinates *)
Definition asked (c : shape_call) (x y z : R) : Prop :=
  match c with
  | MkSphere r => x * x + y * y + z * z <= r * r
  | MkCylinder r lo hi => x * x + y * y <= default r 1 * default r 1 /\ within (default lo (-1)) (default hi 1) z
  | MkParaboloid f h => x * x + y * y <= 4 * default f 1 * z /\ 0 <= z <= default h 1
  | MkXYPlane w l => half_of (default w 2) x /\ half_of (default l 2) y /\ z = 0
  | MkCuboid l r =>
      let '(x0, y0, z0) := default l (-1, -1, -1) in let '(x1, y1, z1) := default r (1, 1, 1) in
      within x0 x1 x /\ within y0 y1 y /\ within z0 z1 z
  | MkFromSides a b c => half_of (default a 1) x /\ half_of (default b 1) y /\ half_of (default c 1) z
  | MkFromLength a => half_of a x /\ half_of a y /\ half_of a z
  end.

(** Only these depend on how the numbers are written: the heights of a cylinder and the sides of a plane *)
Definition usual (c : shape_call) : Prop :=
  match c with
  | MkCylinder _ lo hi => default lo (-1) <= default hi 1
  | MkXYPlane w l => 0 <= default w 2 /\ 0 <= default l 2
  | _ => True
  end.
(** Focus and height of a paraboloid must be positive *)
Definition allowed (c : shape_call) : Prop :=
  match c with MkParaboloid f h => 0 < default f 1 /\ 0 < default h 1 | _ => True end.

(** Two distances tell where a ray is inside a set: between them, or, if there are none, nowhere or only in one point *)
Definition tells (h : xr * xr) (S : R -> Prop) : Prop :=
  (exists t0 t1, h = (Fin t0, Fin t1) /\ t0 <= t1 /\ forall t, S t <-> t0 <= t <= t1) \/ (h = (PInf, PInf) /\ forall t t', S t -> S t' -> t = t').

(** Two primitives that no ray, no normal and no box can tell apart *)
Definition same_shape (p q : prim) : Prop :=
  (forall r, prim_hits p r = prim_hits q r) /\ (forall x, prim_normal p x = prim_normal q x) /\ bounding_points p = bounding_points q.
