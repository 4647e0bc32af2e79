(** * SpecQuat: quaternions as rotations of space
    Specification only: nothing here is taken from the code. *)
From Coq Require Import Reals List Bool.
Import ListNotations.
From Verif Require Import XR Lin LinFacts Prim Csg Surf World Quat.
Open Scope R_scope.

(** Hamilton's product, the conjugate and the norm, with i j = k *)
Definition qmul (p q : quat) : quat :=
  Q (qw p * qx q + qx p * qw q + qy p * qz q - qz p * qy q)
    (qw p * qy q - qx p * qz q + qy p * qw q + qz p * qx q)
    (qw p * qz q + qx p * qy q - qy p * qx q + qz p * qw q)
    (qw p * qw q - qx p * qx q - qy p * qy q - qz p * qz q).
Definition qconj (q : quat) : quat := Q (- qx q) (- qy q) (- qz q) (qw q).
Definition qone : quat := Q 0 0 0 1.
Definition unit_quat (q : quat) : Prop := qx q * qx q + qy q * qy q + qz q * qz q + qw q * qw q = 1.
Fixpoint qpower (n : nat) (q : quat) : quat := match n with O => qone | S k => qmul q (qpower k q) end.

(** The rotation of a direction by a unit quaternion: v goes to q v q* *)
Definition turned_by (q : quat) (v : v4) : v4 :=
  let r := qmul (qmul q (Q (vx v) (vy v) (vz v) 0)) (qconj q) in V4 (qx r) (qy r) (qz r) (vw v).

(** p and - p are the same rotation *)
Definition same_rotation (p q : quat) : Prop := p = q \/ p = Q (- qx q) (- qy q) (- qz q) (- qw q).

(** Half the angle of a rotation, in radians *)
Definition half_angle (a : R) (u : units) : R := match u with Deg => a * PI / 180 / 2 | _ => a / 2 end.
(** The quaternion of a movement: the axis scaled with the sine of half the angle *)
Definition motion_quat (m : motion) : quat :=
  match m with
  | RotX a u => Q (sin (half_angle a u)) 0 0 (cos (half_angle a u))
  | RotY a u => Q 0 (sin (half_angle a u)) 0 (cos (half_angle a u))
  | RotZ a u => Q 0 0 (sin (half_angle a u)) (cos (half_angle a u))
  | _ => qone
  end.
(** and of a sequence of movements: later ones multiply on the left *)
Fixpoint motions_quat (ms : list motion) : quat :=
  match ms with [] => qone | m :: r => qmul (motions_quat r) (motion_quat m) end.

(** A rotation of space, possibly with a translation *)
Definition rotates (m : mat) : Prop :=
  affine m /\ (forall v, vw v = 0 -> vdot (mapply m v) (mapply m v) = vdot v v) /\ mdet m = 1.

(** Programs that never scale: every transform applied is a movement, a rotation or the
    matrix of one. *)
Definition never_scales (c : call) : Prop :=
  match c with
  | CMotion _ (Scale _ _ _) => False
  | CMotion _ (Transform m) => rotates m
  | _ => True
  end.

(** Some component is positive and no other is larger in magnitude *)
Definition leading_positive (q : quat) : Prop :=
  exists k, (k = qx q \/ k = qy q \/ k = qz q \/ k = qw q) /\ 0 < k /\
    Rabs (qx q) <= k /\ Rabs (qy q) <= k /\ Rabs (qz q) <= k /\ Rabs (qw q) <= k.
