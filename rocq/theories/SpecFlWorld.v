(** * SpecFlWorld: how far a placed object may be from where exact arithmetic puts it
    Specification only. *)
From Coq Require Import Reals List Bool.
Import ListNotations.
From Verif Require Import XR Lin World SpecWorld.
Open Scope R_scope.

(** A rounding that leaves the numbers of the machine alone, 0 and 1 among them *)
Definition leaves_numbers (rnd : R -> R) : Prop := rnd 0 = 0 /\ rnd 1 = 1 /\ forall x, rnd (rnd x) = rnd x.
(** The machine's sine and cosine are right up to [delta], for every number of the machine *)
Definition trig_within (delta : R) (rnd fsin fcos : R -> R) : Prop :=
  forall x, rnd x = x -> Rabs (fsin x - sin x) <= delta /\ Rabs (fcos x - cos x) <= delta.

(** Movements and turns, by numbers of the machine; angles in degrees are at most [A] radians *)
Definition turn (rnd : R -> R) (A a : R) (u : units) : Prop :=
  rnd a = a /\ match u with Deg => Rabs a * PI / 180 <= A | Rad => True | OtherUnit => False end.
Definition gentle (rnd : R -> R) (A : R) (o : motion) : Prop :=
  match o with
  | Move x y z => rnd x = x /\ rnd y = y /\ rnd z = z
  | RotX a u | RotY a u | RotZ a u => turn rnd A a u
  | Scale _ _ _ | Transform _ => False
  end.

(** On the way, in exact arithmetic, the object is never farther from the origin than [P] *)
Definition stays_within (P : R) (os : list motion) : Prop :=
  forall before after m, os = before ++ after -> composed before = Some m -> vnorm (vsub (mapply m (point 0 0 0)) (point 0 0 0)) <= P.

(** What [n] movements may add up to, if each contributes a relative error [c] *)
Definition drift (c : R) (n : nat) : R := (1 + c) ^ n - 1.
(** The contribution of one: the roundings of a product, the error of sine and cosine, and that of the angle *)
Definition per_movement (u delta A : R) : R := 21 * u + 2 * (delta + 5 * u * A).

(** Any movement, turn or scaling, by numbers of the machine; only the matrices given to [transform] are left out *)
Definition no_matrix (o : motion) : Prop := match o with Transform _ => False | _ => True end.
(** Moves only: their sum from left to right, one rounding each *)
Fixpoint tally (rnd : R -> R) (p : v4) (os : list motion) : v4 :=
  match os with
  | Move x y z :: r => tally rnd (point (rnd (vx p + x)) (rnd (vy p + y)) (rnd (vz p + z))) r
  | _ => p
  end.
Definition is_move (rnd : R -> R) (o : motion) : Prop := match o with Move x y z => rnd x = x /\ rnd y = y /\ rnd z = z | _ => False end.
