(** * SpecMotion: moving a whole bench
    Specification only. *)
From Coq Require Import Reals List Bool ZArith.
Import ListNotations.
From Verif Require Import XR Lin LinFacts Prim Csg Surf World Tracer SpecTrace.
Open Scope R_scope.

(** A map of space that keeps lengths and angles: a rotation, a reflection or neither,
    followed by a translation *)
Definition isometry (m : mat) : Prop :=
  affine m /\ (exists i, is_inverse m i) /\
  forall u v, vw u = 0 -> vw v = 0 -> vdot (mapply m u) (mapply m v) = vdot u v.

(** The ray carried along by the map *)
Definition carry (m : mat) (c : col) : col := with_ray (ray_map m (c_ray c)) c.
(** The row of the carried ray *)
Definition move_row (m : mat) (w : row) : row :=
  Row (row_gen w) (row_int w) (row_wl w) (row_idx w) (row_id w) (row_surf w)
      (trim (mapply m (here (row_start w)))) (trim (mapply m (here (row_end w)))) (mapply m (row_tilt w)).

(** The same surface, moved *)
Definition moved_surf (m : mat) (s s' : surf) : Prop :=
  s_id s' = s_id s /\ s_prim s' = s_prim s /\ s_nscale s' = s_nscale s /\ s_mat s' = s_mat s /\
  s_world s' = mmul m (s_world s) /\ is_inverse (s_world s') (s_obj s').

(** One side of a box carried to an axis, on which the map is [x -> k x + t], k = 1 or -1 *)
Definition carried_side (k t : R) (a a' : xr * xr) : Prop :=
  (k = 1 /\ a' = (xadd (fst a) (Fin t), xadd (snd a) (Fin t))) \/
  (k = -1 /\ a' = (xsub (Fin t) (snd a), xsub (Fin t) (fst a))).
Definition side_of (r : v4) (b : box) (a' : xr * xr) : Prop :=
  (vy r = 0 /\ vz r = 0 /\ carried_side (vx r) (vw r) (spanx b) a') \/
  (vx r = 0 /\ vz r = 0 /\ carried_side (vy r) (vw r) (spany b) a') \/
  (vx r = 0 /\ vy r = 0 /\ carried_side (vz r) (vw r) (spanz b) a').
(** The box [b'] is the box [b] moved by a map that takes axes to axes *)
Definition moved_box (m : mat) (b b' : box) : Prop :=
  side_of (row0 m) b (spanx b') /\ side_of (row1 m) b (spany b') /\ side_of (row2 m) b (spanz b').

(** The same shape, moved: all its surfaces, and the stored boxes of its CSG nodes *)
Inductive moved_shape (m : mat) : shape -> shape -> Prop :=
| MovedLeaf : forall s s' b b', moved_surf m s s' -> moved_shape m (Leaf s b) (Leaf s' b')
| MovedNode : forall i i' op b b' l l' r r', moved_box m b b' -> moved_shape m l l' -> moved_shape m r r' ->
    moved_shape m (Node i op b l r) (Node i' op b' l' r').

(** np.argsort only compares: columns with the same order get the same permutation. *)
Definition same_order (l l' : list xr) : Prop :=
  length l = length l' /\ forall i j, xsle (nth i l PInf) (nth j l PInf) = xsle (nth i l' PInf) (nth j l' PInf).
Definition by_comparison (asort : list xr -> list nat) : Prop :=
  forall l l', same_order l l' -> asort l = asort l'.
