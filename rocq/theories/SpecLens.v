(** * SpecLens: the spheres a lens is cut with (no model definitions beyond numbers) *)
From Coq Require Import Reals Lra.
From Verif Require Import XR.
Open Scope R_scope.

(** A radius a side can be built with; [concave] says when the side is hollow, and only a
    hollow side needs the aperture of half width [h] to fit its sphere. *)
Definition side_ok (concave : R -> Prop) (r : xr) (h : R) : Prop :=
  match r with Fin r => r <> 0 /\ (concave r -> h <= Rabs r) | PInf | MInf => True | NaN => False end.

(** How far a hollow side reaches beyond its vertex at the edge of the aperture. *)
Definition rim (r h : R) : R := Rabs r - sqrt (Rabs r * Rabs r - h * h).
Definition front_rim (r1 : xr) (h : R) : R := match r1 with Fin r => if rltb r 0 then rim r h else 0 | _ => 0 end.
Definition back_rim (r2 : xr) (h : R) : R := match r2 with Fin r => if rltb 0 r then rim r h else 0 | _ => 0 end.

(** The point (x, y, z) is on the glass side of the front: its sphere has the signed radius
    [r1] and its vertex in (-t/2, 0, 0); glass is inside it if the radius is positive. *)
Definition behind_front (r1 : xr) (t x y z : R) : Prop :=
  match r1 with
  | Fin r => let d := (x - (r - t / 2)) * (x - (r - t / 2)) + y * y + z * z in if rltb 0 r then d <= r * r else r * r < d
  | _ => True
  end.
(** the back has its vertex in (t/2, 0, 0), and glass inside the sphere if its radius is negative *)
Definition before_back (r2 : xr) (t x y z : R) : Prop :=
  match r2 with
  | Fin r => let d := (x - (r + t / 2)) * (x - (r + t / 2)) + y * y + z * z in if rltb r 0 then d <= r * r else r * r < d
  | _ => True
  end.

(** The far side of the sphere of a convex front, of a convex back, at the squared distance
    [q] from the axis. *)
Definition before_far_front (r1 : xr) (t q x : R) : Prop := forall r, r1 = Fin r -> 0 < r -> x <= r + sqrt (r * r - q) - t / 2.
Definition after_far_back (r2 : xr) (t q x : R) : Prop := forall r, r2 = Fin r -> r < 0 -> r - sqrt (r * r - q) + t / 2 <= x.
