(** * SpecRaySet: when a 13 x n array holds a list of rays *)
From Coq Require Import Reals List.
Import ListNotations.
From Verif Require Import XR Lin Tracer Batch RaySet.
Open Scope R_scope.

(** the names a user can use: rays[0..1, 0..3] and the five metadata fields *)
Definition field_ok (f : field) : Prop :=
  match f with Coord k axis => (k < 2)%nat /\ (axis < 4)%nat | _ => True end.

(** a RaySet has 13 rows *)
Definition is_rayset (rs : arr R) : Prop := length (rows rs) = 13%nat.

Definition v4_axis (v : v4) (axis : nat) : R :=
  match axis with 0%nat => vx v | 1%nat => vy v | 2%nat => vz v | _ => vw v end.

(** the value of a field of one ray *)
Definition field_of (c : col) (f : field) : R :=
  match f with
  | Coord 0 axis => v4_axis (origin (c_ray c)) axis
  | Coord _ axis => v4_axis (direction (c_ray c)) axis
  | Generation => INR (c_gen c)
  | Intensity => c_int c
  | Wavelength => c_wl c
  | Index => c_idx c
  | Id => INR (c_id c)
  end.

(** the array holds these rays, in this order *)
Definition holds (rs : arr R) (cs : list col) : Prop :=
  is_rayset rs /\ width rs = length cs /\
  forall j c f, nth_error cs j = Some c -> field_ok f -> get rs f j = field_of c f.
