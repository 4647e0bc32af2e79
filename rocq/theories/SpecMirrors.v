(** * SpecMirrors: rows that are reflected at a mirror standing somewhere on a bench
    Specification only. *)
From Coq Require Import Reals List Bool ZArith.
Import ListNotations.
From Verif Require Import XR Lin Prim Csg Surf World Tracer SpecTrace Components SpecComponents SpecOptics SpecMotion SpecPrism.
Open Scope R_scope.

(** [w] and [w'] are consecutive rows of one ray, in some trace of some scene in which the mirror [s0] stands where
    [m] takes it; [w] ends at a point of [face] of its reflecting part, the last of its surfaces *)
Definition reflected (asort : list xr -> list nat) (s0 : shape) (m : mat) (face : v4 -> Prop) (w w' : row) : Prop :=
  exists gen h t comps fuel t' s i j others f, proper gen h t comps /\ trace asort h gen fuel t = TOk t' /\
  In s comps /\ Forall2 (moved_surf m) (surface_ids s0) (surface_ids s) /\
  nth_error (rows_with_id i (f_rows (get_results t'))) j = Some w /\ nth_error (rows_with_id i (f_rows (get_results t'))) (S j) = Some w' /\
  surface_ids s = others ++ [f] /\ ends_on face m f w.

(** The reflecting faces, as the factories make them: a paraboloid with its focus in the origin, a sphere through
    the origin with its centre at (r, 0, 0), the two sides of a plate *)
Definition on_paraboloid (f : R) (ap : aperture_arg) (off : R * R) (q : v4) : Prop :=
  exists y z, in_open_aperture ap off y z /\ q = pt ((y * y + z * z) / (4 * f) - f) y z.
Definition on_sphere (r : R) (ap : aperture_arg) (off : R * R) (q : v4) : Prop :=
  exists y z, in_open_aperture ap off y z /\ q = pt (sag (Fin r) (y * y + z * z)) y z.
Definition on_plate (x : R) (ap : aperture_arg) (off : R * R) (q : v4) : Prop :=
  exists y z, well_inside ap off y z /\ q = pt x y z.

(** The point reached, going on from the end of [w] along [w'] by the distance [tau] *)
Definition beyond (w w' : row) (tau : R) : v4 := vadd (here (row_end w)) (vscale tau (row_tilt w')).
(** The coordinate of the end of [w] along the axis of the mirror at [m] *)
Definition depth_of (m : mat) (w : row) : R := vdot (vsub (here (row_end w)) (mapply m (pt 0 0 0))) (mapply m (V4 1 0 0 0)).
