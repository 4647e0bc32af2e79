(** * SpecSymmetry: scenes that look the same after a rotation or a reflection
    Specification only. *)
From Coq Require Import Reals List Bool ZArith.
Import ListNotations.
From Verif Require Import XR Lin LinFacts Prim Csg Surf World Components SpecComponents Tracer SpecTrace SpecMotion.
Open Scope R_scope.

(** A rotation or reflection that leaves the origin where it is *)
Definition turning (g : mat) : Prop := affine g /\ is_inverse g (mtrans g).
(** One that also leaves the points of the z axis where they are *)
Definition about_z (g : mat) : Prop := turning g /\ row2 g = V4 0 0 1 0.
(** Turning some axes round *)
Definition flip (a b c : R) : mat := M4 (V4 a 0 0 0) (V4 0 b 0 0) (V4 0 0 c 0) (V4 0 0 0 1).
Definition sign (a : R) : Prop := a = 1 \/ a = -1.
(** The interval between two ends is centred (and wider than numpy's isclose) *)
Definition centred (lo hi : R) : Prop := lo = - hi /\ 2 * atol < Rabs hi.

(** Maps that leave a primitive, in its own coordinates, as it is.  (Not all of them:
    turning a centred cylinder upside down or a cube on another face is left out.) *)
Definition symmetry_of (p : prim) (g : mat) : Prop :=
  match p with
  | PSphere _ => turning g
  | PCylinder _ _ _ _ | PParaboloid _ _ => about_z g
  | PPlane _ _ => exists a b, sign a /\ sign b /\ g = flip a b 1
  | PCube (x0, y0, z0) (x1, y1, z1) =>
      exists a b c, sign a /\ sign b /\ sign c /\ g = flip a b c /\
        (a = 1 \/ centred x0 x1) /\ (b = 1 \/ centred y0 y1) /\ (c = 1 \/ centred z0 z1)
  end.

(** The surface, where it is placed, is left as it is by the map [m] of space. *)
Definition symmetric_surf (m : mat) (s : surf) : Prop :=
  exists g, mmul m (s_world s) = mmul (s_world s) g /\ symmetry_of (s_prim s) g.
(** So is the shape: all its surfaces, and the boxes of its CSG nodes *)
Fixpoint symmetric (m : mat) (s : shape) : Prop :=
  match s with
  | Leaf f _ => symmetric_surf m f
  | Node _ _ b l r => moved_box m b b /\ symmetric m l /\ symmetric m r
  end.

(** Reflections in the planes that contain the x axis, the optical axis of every lens
    and mirror the factories make *)
Definition mirror_y : mat := flip 1 (-1) 1.
Definition mirror_z : mat := flip 1 1 (-1).
(** A point, or a direction, of the x axis *)
Definition on_axis (v : v4) : Prop := vy v = 0 /\ vz v = 0.

(** The shape looks the same in the mirror planes y = 0 and z = 0. *)
Definition axially_symmetric (s : shape) : Prop := symmetric mirror_y s /\ symmetric mirror_z s.
(** The component, moved along the x axis after it was made *)
Definition standing_at (x : R) (o : outcome) : outcome :=
  match o with Makes prog l => Makes (prog ++ [CMotion l (op_move_x x)]) l | o => o end.
(** The factory call succeeds and makes a symmetric component, which stays symmetric when
    it is moved along the axis. *)
Definition axial_component (asort : list xr -> list nat) (o : outcome) : Prop :=
  built asort o axially_symmetric /\ forall x, built asort (standing_at x o) axially_symmetric.
(** An aperture whose rectangle is wider than numpy's isclose *)
Definition wide (ap : aperture_arg) : Prop :=
  match ap with Round d => 0 < d | Pair a b => 4 * atol < a /\ 4 * atol < b end.
