(** * SpecQuatScaled: what scaling does to the reported rotation
    Specification only. *)
From Coq Require Import Reals List Bool.
From Verif Require Import XR Lin World Quat SpecQuat.
Open Scope R_scope.

(** [k] is a component of [q], the largest in magnitude *)
Definition leads (k : R) (q : quat) : Prop := Rabs (qx q) <= Rabs k /\ Rabs (qy q) <= Rabs k /\ Rabs (qz q) <= Rabs k /\ Rabs (qw q) <= Rabs k.
(** [p] is, up to a positive factor, 4 s k q with 1 - s added to its leading component k *)
Definition skewed (s : R) (q p : quat) : Prop :=
  exists c, 0 < c /\ let f k x := c * (4 * s * k * x) in let g k := c * (4 * s * k * k + (1 - s)) in
  (leads (qx q) q /\ p = Q (g (qx q)) (f (qx q) (qy q)) (f (qx q) (qz q)) (f (qx q) (qw q)) \/
   leads (qy q) q /\ p = Q (f (qy q) (qx q)) (g (qy q)) (f (qy q) (qz q)) (f (qy q) (qw q)) \/
   leads (qz q) q /\ p = Q (f (qz q) (qx q)) (f (qz q) (qy q)) (g (qz q)) (f (qz q) (qw q)) \/
   leads (qw q) q /\ p = Q (f (qw q) (qx q)) (f (qw q) (qy q)) (f (qw q) (qz q)) (g (qw q))).
(** No rotation, or half a turn about the x, y or z axis *)
Definition no_or_half_turn (q : quat) : Prop :=
  (qx q = 0 /\ qy q = 0 /\ qz q = 0) \/ (qy q = 0 /\ qz q = 0 /\ qw q = 0) \/ (qx q = 0 /\ qz q = 0 /\ qw q = 0) \/ (qx q = 0 /\ qy q = 0 /\ qw q = 0).
(** The object turns directions by [q] and stretches them by [s] *)
Definition turns_and_stretches (q : quat) (s : R) (o : obj) : Prop :=
  forall a b c, to_world_coordinates o (vector a b c) = vscale s (turned_by q (vector a b c)).
(** Programs that scale evenly: every transform applied is a movement, a rotation, the matrix of one, or the same
    positive scale along all three axes *)
Definition scales_evenly (c : call) : Prop :=
  match c with
  | CMotion _ (Scale x y z) => 0 < x /\ y = x /\ z = x
  | CMotion _ (Transform m) => rotates m
  | _ => True
  end.
