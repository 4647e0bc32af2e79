(** * SpecGeom: points of a ray, solids, and what an answer of intersect means
    Specification only. *)
From Coq Require Import Reals List Bool.
Import ListNotations.
From Verif Require Import XR Lin Prim.
Open Scope R_scope.

(** The point of the ray at parameter [t]: x(t) = o + t v  (primitives.py:137-138) *)
Definition ray_at (r : ray) (t : R) : v4 :=
  V4 (vx (origin r) + t * vx (direction r))
     (vy (origin r) + t * vy (direction r))
     (vz (origin r) + t * vz (direction r))
     (vw (origin r) + t * vw (direction r)).

Definition between (a b x : R) : Prop := Rmin a b <= x <= Rmax a b.

(** The closed solid (for the plane: the rectangle) each primitive stands for. *)
Definition solid (p : prim) (q : v4) : Prop :=
  match p with
  | PSphere r => vx q * vx q + vy q * vy q + vz q * vz q <= r * r
  | PCylinder r lo hi _ => vx q * vx q + vy q * vy q <= r * r /\ lo <= vz q <= hi
  | PCube (x0, y0, z0) (x1, y1, z1) =>
      between x0 x1 (vx q) /\ between y0 y1 (vy q) /\ between z0 z1 (vz q)
  | PParaboloid f h => vx q * vx q + vy q * vy q <= 4 * f * vz q /\ 0 <= vz q <= h
  | PPlane w l => Rabs (vx q) <= w / 2 /\ Rabs (vy q) <= l / 2 /\ vz q = 0
  end.

(** The surface of each solid. *)
Definition on_surface (p : prim) (q : v4) : Prop :=
  match p with
  | PSphere r => vx q * vx q + vy q * vy q + vz q * vz q = r * r
  | PCylinder r lo hi _ =>
      solid p q /\ (vx q * vx q + vy q * vy q = r * r \/ vz q = lo \/ vz q = hi)
  | PCube (x0, y0, z0) (x1, y1, z1) =>
      solid p q /\
      ((vx q = x0 \/ vx q = x1) \/ (vy q = y0 \/ vy q = y1) \/ (vz q = z0 \/ vz q = z1))
  | PParaboloid f h =>
      solid p q /\ (vx q * vx q + vy q * vy q = 4 * f * vz q \/ vz q = h)
  | PPlane _ _ => solid p q
  end.

(** The answer [h] says exactly that [S] is the closed interval between two
    finite parameters, or that [S] is empty. *)
Definition answers (h : xr * xr) (S : R -> Prop) : Prop :=
  (exists t0 t1, h = (Fin t0, Fin t1) /\ t0 <= t1 /\ forall t, S t <-> t0 <= t <= t1) \/
  (h = (PInf, PInf) /\ forall t, ~ S t).

(** A direction component the code treats exactly: zero, or outside the
    [np.isclose] band around zero. *)
Definition clear (d : R) : Prop := d = 0 \/ atol < Rabs d.

(** The rays each primitive answers exactly; the rest (a direction component, or
    the squared direction component across the axis, that is not zero but at most
    1e-8) is where the code approximates.  *)
Definition clear_ray (p : prim) (r : ray) : Prop :=
  let d := direction r in
  match p with
  | PSphere _ => True
  | PCylinder _ _ _ _ => clear (vx d * vx d + vy d * vy d) /\ clear (vz d)
  | PCube _ _ => clear (vx d) /\ clear (vy d) /\ clear (vz d)
  | PParaboloid f _ =>
      clear (vx d * vx d + vy d * vy d) /\ clear (vz d) /\ clear (4 * f * vz d)
  | PPlane _ _ => clear (vx d) /\ clear (vy d) /\ clear (vz d)
  end.

(** The ray goes somewhere. *)
Definition moving (r : ray) : Prop :=
  ~ (vx (direction r) = 0 /\ vy (direction r) = 0 /\ vz (direction r) = 0).

(** Sensible constructor arguments. *)
Definition prim_ok (p : prim) : Prop :=
  match p with
  | PSphere r => r <> 0
  | PCylinder r lo hi _ => r <> 0 /\ lo <= hi
  | PCube _ _ => True
  | PParaboloid f h => 0 < f /\ 0 < h
  | PPlane w l => 0 <= w /\ 0 <= l
  end.
