(** * Lin: homogeneous coordinates, 4x4 matrices and rays *)
From Coq Require Import Reals List Bool.
Import ListNotations.
Open Scope R_scope.

(** primitives.py:35-95 [HomogeneousCoordinate], [Point], [Vector]: four floats. *)
Record v4 : Type := V4 { vx : R; vy : R; vz : R; vw : R }.

(** primitives.py:85-89 [Point(x, y, z)] *)
Definition point (x y z : R) : v4 := V4 x y z 1.
(** primitives.py:92-94 [Vector(x, y, z)] *)
Definition vector (x y z : R) : v4 := V4 x y z 0.

(** numpy elementwise operations on 4-vectors *)
Definition vadd (a b : v4) : v4 := V4 (vx a + vx b) (vy a + vy b) (vz a + vz b) (vw a + vw b).
Definition vscale (k : R) (a : v4) : v4 := V4 (k * vx a) (k * vy a) (k * vz a) (k * vw a).
Definition vopp (a : v4) : v4 := vscale (-1) a.
Definition vsub (a b : v4) : v4 := vadd a (vopp b).
(** operations.py:66-83 [element_wise_dot] on one column of a 4-row array *)
Definition vdot (a b : v4) : R := vx a * vx b + vy a * vy b + vz a * vz b + vw a * vw b.
(** [np.linalg.norm(v, axis=0)] of one column *)
Definition vnorm (a : v4) : R := sqrt (vdot a a).
Definition vset_w (a : v4) (w : R) : v4 := V4 (vx a) (vy a) (vz a) w.

(** [v / np.linalg.norm(v)]; [None] stands for the nan vector numpy produces for
    a zero vector. *)
Definition vnormalize (a : v4) : option v4 :=
  if Req_EM_T (vdot a a) 0 then None else Some (vscale (/ vnorm a) a).

(** 4x4 matrices, by rows *)
Record mat : Type := M4 { row0 : v4; row1 : v4; row2 : v4; row3 : v4 }.

(** [np.identity(4)] (world_objects.py:50-56) *)
Definition mid : mat := M4 (V4 1 0 0 0) (V4 0 1 0 0) (V4 0 0 1 0) (V4 0 0 0 1).

(** [np.matmul(m, v)] *)
Definition mapply (m : mat) (v : v4) : v4 :=
  V4 (vdot (row0 m) v) (vdot (row1 m) v) (vdot (row2 m) v) (vdot (row3 m) v).

(** [m.T] *)
Definition mtrans (m : mat) : mat :=
  M4 (V4 (vx (row0 m)) (vx (row1 m)) (vx (row2 m)) (vx (row3 m)))
     (V4 (vy (row0 m)) (vy (row1 m)) (vy (row2 m)) (vy (row3 m)))
     (V4 (vz (row0 m)) (vz (row1 m)) (vz (row2 m)) (vz (row3 m)))
     (V4 (vw (row0 m)) (vw (row1 m)) (vw (row2 m)) (vw (row3 m))).

(** [np.matmul(a, b)]: row i of the product is row i of [a] times [b]. *)
Definition mmul (a b : mat) : mat :=
  let bt := mtrans b in
  M4 (mapply bt (row0 a)) (mapply bt (row1 a)) (mapply bt (row2 a)) (mapply bt (row3 a)).

(** Determinant and adjugate, by 2x2 minors of the upper and lower half. *)
Section Det.
  Variable m : mat.
  Let a00 := vx (row0 m). Let a01 := vy (row0 m). Let a02 := vz (row0 m). Let a03 := vw (row0 m).
  Let a10 := vx (row1 m). Let a11 := vy (row1 m). Let a12 := vz (row1 m). Let a13 := vw (row1 m).
  Let a20 := vx (row2 m). Let a21 := vy (row2 m). Let a22 := vz (row2 m). Let a23 := vw (row2 m).
  Let a30 := vx (row3 m). Let a31 := vy (row3 m). Let a32 := vz (row3 m). Let a33 := vw (row3 m).
  Let s0 := a00 * a11 - a10 * a01.
  Let s1 := a00 * a12 - a10 * a02.
  Let s2 := a00 * a13 - a10 * a03.
  Let s3 := a01 * a12 - a11 * a02.
  Let s4 := a01 * a13 - a11 * a03.
  Let s5 := a02 * a13 - a12 * a03.
  Let c5 := a22 * a33 - a32 * a23.
  Let c4 := a21 * a33 - a31 * a23.
  Let c3 := a21 * a32 - a31 * a22.
  Let c2 := a20 * a33 - a30 * a23.
  Let c1 := a20 * a32 - a30 * a22.
  Let c0 := a20 * a31 - a30 * a21.

  Definition mdet : R := s0 * c5 - s1 * c4 + s2 * c3 + s3 * c2 - s4 * c1 + s5 * c0.

  Definition madj : mat :=
    M4 (V4 (a11 * c5 - a12 * c4 + a13 * c3) (- a01 * c5 + a02 * c4 - a03 * c3)
           (a31 * s5 - a32 * s4 + a33 * s3) (- a21 * s5 + a22 * s4 - a23 * s3))
       (V4 (- a10 * c5 + a12 * c2 - a13 * c1) (a00 * c5 - a02 * c2 + a03 * c1)
           (- a30 * s5 + a32 * s2 - a33 * s1) (a20 * s5 - a22 * s2 + a23 * s1))
       (V4 (a10 * c4 - a11 * c2 + a13 * c0) (- a00 * c4 + a01 * c2 - a03 * c0)
           (a30 * s4 - a31 * s2 + a33 * s0) (- a20 * s4 + a21 * s2 - a23 * s0))
       (V4 (- a10 * c3 + a11 * c1 - a12 * c0) (a00 * c3 - a01 * c1 + a02 * c0)
           (- a30 * s3 + a31 * s1 - a32 * s0) (a20 * s3 - a21 * s1 + a22 * s0)).
End Det.

Definition mscale (k : R) (m : mat) : mat :=
  M4 (vscale k (row0 m)) (vscale k (row1 m)) (vscale k (row2 m)) (vscale k (row3 m)).

(** [np.linalg.inv]: [None] stands for LinAlgError("Singular matrix").
    SIMPLIFICATION: exact arithmetic, so it raises exactly for determinant 0. *)
Definition minv (m : mat) : option mat :=
  if Req_EM_T (mdet m) 0 then None else Some (mscale (/ mdet m) (madj m)).

(** primitives.py:97-122 [Ray]: row 0 is the origin, row 1 the direction. *)
Record ray : Type := Ray { origin : v4; direction : v4 }.

(** [np.matmul(m, rays)] on one ray (rows 0 and 1 are both multiplied) *)
Definition ray_map (m : mat) (r : ray) : ray :=
  Ray (mapply m (origin r)) (mapply m (direction r)).
