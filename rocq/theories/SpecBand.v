(** * SpecBand: rays that numpy's isclose takes for parallel to a face or an axis *)
From Coq Require Import Reals.
From Verif Require Import Lin Prim Csg Surf SpecGeom SpecTree SpecSeen.
Open Scope R_scope.

(** 1e-8 and less counts as 0. *)
Definition no_less (x : R) : R := if Rle_dec (Rabs x) (/ 100000000) then 0 else x.

(** The ray with such components of its direction replaced by 0 *)
Definition straightened (r : ray) : ray :=
  let d := direction r in Ray (origin r) (V4 (no_less (vx d)) (no_less (vy d)) (no_less (vz d)) (vw d)).

(** For surfaces of revolution about z it is the squared component across the axis that counts. *)
Definition across (r : ray) : R := vx (direction r) * vx (direction r) + vy (direction r) * vy (direction r).
Definition flattened (r : ray) : ray :=
  let d := direction r in Ray (origin r) (V4 (vx d) (vy d) (no_less (vz d)) (vw d)).
Definition axial (r : ray) : ray :=
  let d := direction r in Ray (origin r) (V4 0 0 (no_less (vz d)) (vw d)).
(** How fast the squared distance from the axis changes at the origin of the ray *)
Definition approach (r : ray) : R := 2 * (vx (direction r) * vx (origin r) + vy (direction r) * vy (origin r)).

(** Points next to each other: no coordinate differs by more than [e]. *)
Definition within_each (e : R) (p q : v4) : Prop :=
  Rabs (vx p - vx q) <= e /\ Rabs (vy p - vy q) <= e /\ Rabs (vz p - vz q) <= e /\ vw p = vw q.

(** A ray in the world that runs almost along x, though not quite: the squared sideways
    part of its direction is at most 1e-8, and its distance from the x axis changes. *)
Definition almost_along_x (r : ray) : Prop :=
  let d := direction r in let o := origin r in
  vy d * vy d + vz d * vz d <= / 100000000 /\ / 100000000 < Rabs (2 * (vy d * vy o + vz d * vz o)).

(** How fast x^2 + y^2 - 4 f z changes at the origin of the ray, and its value there *)
Definition fall (f : R) (r : ray) : R := approach r - 4 * f * vz (direction r).
Definition bowl_height (f : R) (p : v4) : R := vx p * vx p + vy p * vy p - 4 * f * vz p.

(** ** The times at which a ray counts as inside, for each primitive and for a tree *)
Definition told (p : prim) (r : ray) (t : R) : Prop :=
  match p with
  | PSphere _ => solid p (ray_at r t)
  | PCube _ _ => solid p (ray_at (straightened r) t)
  | PPlane _ _ => / 100000000 < Rabs (vz (direction r)) /\ solid p (ray_at (straightened r) t)
  | PCylinder _ _ _ _ =>
      (/ 100000000 < across r /\ solid p (ray_at (flattened r) t)) \/
      (across r <= / 100000000 /\ Rabs (approach r) <= / 100000000 /\ solid p (ray_at (axial r) t))
  | PParaboloid f h =>
      (/ 100000000 < across r /\ bowl_height f (ray_at r t) <= 0 /\ 0 <= vz (ray_at (flattened r) t) <= h) \/
      (across r <= / 100000000 /\ fall f r * t + bowl_height f (origin r) <= 0 /\ 0 <= vz (ray_at r t) <= h)
  end.
Fixpoint told_tree (s : shape) (r : ray) (t : R) : Prop :=
  match s with
  | Leaf f _ => told (s_prim f) (ray_map (s_obj f) r) t
  | Node _ op b l rt =>
      crosses b (straightened r) /\
      match op with
      | UNION => told_tree l r t \/ told_tree rt r t
      | INTERSECT => told_tree l r t /\ told_tree rt r t
      | DIFFERENCE => told_tree l r t /\ ~ told_tree rt r t
      end
  end.
(** Rays that do not seem to stand still; a paraboloid must not be met almost along its axis and
    yet move away from it faster than it deepens. *)
Definition steady (p : prim) (r : ray) : Prop :=
  match p with
  | PSphere _ | PPlane _ _ => True
  | PCube _ _ => moving (straightened r)
  | PCylinder _ _ _ _ => / 100000000 < across r \/ / 100000000 < Rabs (approach r) \/ / 100000000 < Rabs (vz (direction r))
  | PParaboloid f _ =>
      / 100000000 < across r \/
      (/ 100000000 < Rabs (vz (direction r)) /\ / 100000000 < Rabs (fall f r) /\ fall f r * vz (direction r) < 0)
  end.
Fixpoint steady_tree (s : shape) (r : ray) : Prop :=
  match s with
  | Leaf f _ => steady (s_prim f) (ray_map (s_obj f) r)
  | Node _ _ _ l rt => moving (straightened r) /\ steady_tree l r /\ steady_tree rt r
  end.
