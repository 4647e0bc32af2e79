(** * Quat: the rotation an object reports
    Model of WorldObject.get_quaternion (/repo/tinygfx/g3d/world_objects.py:156-160).
    The method hands the upper left 3x3 block of the world transform to
    scipy.spatial.transform.Rotation.from_matrix and returns as_quat().  The conversion is
    the one of scipy 1.6.3 (the version pinned in /repo/poetry.lock): no check that the
    block is a rotation, one of four formulas chosen by the largest of the diagonal
    entries and the trace, then a division by the norm.
    SIMPLIFICATION: exact arithmetic. *)
From Coq Require Import Reals List Bool.
Import ListNotations.
From Verif Require Import XR Lin Prim Csg Surf World.
Open Scope R_scope.

(** as_quat() returns the four numbers in the order x, y, z, w. *)
Record quat : Type := Q { qx : R; qy : R; qz : R; qw : R }.

(** world_objects.py:158 [_world_coordinate_transform[:-1, :-1]] is read entry by entry:
    [mat_at m i j] is the entry in row [i], column [j]. *)
Definition vec_at (v : v4) (j : nat) : R := match j with O => vx v | 1%nat => vy v | 2%nat => vz v | _ => vw v end.
Definition mat_at (m : mat) (i j : nat) : R :=
  vec_at (match i with O => row0 m | 1%nat => row1 m | 2%nat => row2 m | _ => row3 m end) j.

(** The index of the first largest of four numbers (scipy's _argmax4). *)
Definition argmax4 (a b c d : R) : nat :=
  let '(i1, v1) := if rltb a b then (1%nat, b) else (O, a) in
  let '(i2, v2) := if rltb v1 c then (2%nat, c) else (i1, v1) in
  if rltb v2 d then 3%nat else i2.

(** Division by the norm; a zero quaternion stays as it is (scipy's _normalize4). *)
Definition qnormalize (q : quat) : quat :=
  let n := sqrt (qx q * qx q + qy q * qy q + qz q * qz q + qw q * qw q) in
  if Req_EM_T n 0 then q else Q (qx q / n) (qy q / n) (qz q / n) (qw q / n).

(** world_objects.py:158 [transform.Rotation.from_matrix], before the division. *)
Definition raw_quat (m : mat) : quat :=
  let e := mat_at m in
  let tr := e 0%nat 0%nat + e 1%nat 1%nat + e 2%nat 2%nat in
  match argmax4 (e 0%nat 0%nat) (e 1%nat 1%nat) (e 2%nat 2%nat) tr with
  | O => Q (1 - tr + 2 * e 0%nat 0%nat) (e 1%nat 0%nat + e 0%nat 1%nat)
           (e 2%nat 0%nat + e 0%nat 2%nat) (e 2%nat 1%nat - e 1%nat 2%nat)
  | 1%nat => Q (e 0%nat 1%nat + e 1%nat 0%nat) (1 - tr + 2 * e 1%nat 1%nat)
           (e 2%nat 1%nat + e 1%nat 2%nat) (e 0%nat 2%nat - e 2%nat 0%nat)
  | 2%nat => Q (e 0%nat 2%nat + e 2%nat 0%nat) (e 1%nat 2%nat + e 2%nat 1%nat)
           (1 - tr + 2 * e 2%nat 2%nat) (e 1%nat 0%nat - e 0%nat 1%nat)
  | _ => Q (e 2%nat 1%nat - e 1%nat 2%nat) (e 0%nat 2%nat - e 2%nat 0%nat)
           (e 1%nat 0%nat - e 0%nat 1%nat) (1 + tr)
  end.
Definition from_matrix (m : mat) : quat := qnormalize (raw_quat m).

(** world_objects.py:156-160 [get_quaternion] *)
Definition get_quaternion (o : obj) : quat := from_matrix (o_world o).
