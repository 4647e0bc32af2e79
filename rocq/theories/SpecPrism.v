(** * SpecPrism: the path of a ray through an equilateral prism
    Specification only.  The prism stands as [equilateral_prism] builds it: its edges run along y, its base is parallel
    to the xy plane, the other two faces rise from the left (x < 0) and from the right (x > 0) and meet above the middle. *)
From Coq Require Import Reals List Bool ZArith.
Import ListNotations.
From Verif Require Import XR Lin Prim Csg Surf World Tracer SpecTrace SpecComponents SpecOptics SpecMotion.
Open Scope R_scope.

(** The outward normals of the two faces; up the left face, down the right one; along the edges *)
Definition out_left : v4 := V4 (- (sqrt 3 / 2)) 0 (1 / 2) 0.
Definition up_left : v4 := V4 (1 / 2) 0 (sqrt 3 / 2) 0.
Definition out_right : v4 := V4 (sqrt 3 / 2) 0 (1 / 2) 0.
Definition down_right : v4 := V4 (1 / 2) 0 (- (sqrt 3 / 2)) 0.
Definition edgewise : v4 := V4 0 1 0 0.
(** The direction in the plane of the triangles that rises by the angle [a] *)
Definition slanted (a : R) : v4 := V4 (cos a) 0 (sin a) 0.

(** The points of the faces, at the distance [l] from the base along the face, off numpy's isclose band at the base *)
Definition off_the_base (side l : R) : Prop := 1 / 100000000 + 1 / 100000 * side < l < side.
Definition on_left (side width : R) (q : v4) : Prop :=
  exists l y, off_the_base side l /\ Rabs y < width / 2 /\ q = pt (l / 2 - side / 2) y (sqrt 3 / 2 * l - sqrt 3 / 4 * side).
Definition on_right (side width : R) (q : v4) : Prop :=
  exists l y, off_the_base side l /\ Rabs y < width / 2 /\ q = pt (side / 2 - l / 2) y (sqrt 3 / 2 * l - sqrt 3 / 4 * side).

(** The row ends on a face, made by the surface [f], of the prism standing where [m] takes it *)
Definition ends_on (face : v4 -> Prop) (m : mat) (f : surf) (w : row) : Prop :=
  row_surf w = s_id f /\ exists q, face q /\ here (row_end w) = mapply m q.
(** Two rows of a ray that comes from air, enters through the left face, and comes next to the right one.  The prism
    is a block from which one part cuts the left face, another the right face. *)
Definition through (side width : R) (m : mat) (s : shape) (w1 w2 : row) : Prop :=
  exists block left right, surface_ids s = [block; left; right] /\
  ends_on (on_left side width) m left w1 /\ vdot (row_tilt w1) (mapply m out_left) < 0 /\ row_idx w1 = 1 /\
  ends_on (on_right side width) m right w2.

(** ... and the row after them, in some trace of some scene in which the prism [s0] stands where [m] takes it *)
Definition traced_through (asort : list xr -> list nat) (s0 : shape) (side width : R) (m : mat) (w1 w2 w3 : row) : Prop :=
  exists gen h t comps fuel t' s i j rows, proper gen h t comps /\ trace asort h gen fuel t = TOk t' /\
  In s comps /\ Forall2 (moved_surf m) (surface_ids s0) (surface_ids s) /\
  rows = rows_with_id i (f_rows (get_results t')) /\
  nth_error rows j = Some w1 /\ nth_error rows (S j) = Some w2 /\ nth_error rows (S (S j)) = Some w3 /\ through side width m s w1 w2.

(** How far up the left face, and along the edges, the ray comes; how far down the right face it leaves *)
Definition rise (m : mat) (w : row) : R := vdot (row_tilt w) (mapply m up_left).
Definition skew (m : mat) (w : row) : R := vdot (row_tilt w) (mapply m edgewise).
Definition descent (n a y : R) : R := sqrt 3 / 2 * sqrt (n * n - a * a - y * y) - a / 2.
