(** * Props_Quat: the rotation an object reports *)
From Coq Require Import Reals List Bool Lra.
Import ListNotations.
From Verif Require Import XR Lin LinFacts Prim Csg Surf World SpecWorld WorldFacts3 Quat SpecQuat QuatProps QuatExamples SpecQuatScaled QuatScaled QuatScaledHist.
Open Scope R_scope.

(** C104.  An object that was never scaled is placed by a rotation of space. *)
Theorem C104_objects_that_never_scale_are_rotated_partial : forall asort cs h x o,
  run_prog asort cs empty_heap = Ok h -> Forall never_scales cs -> get h x = Some o -> rotates (get_world_transform o).
Proof. exact history_rotates. Qed.
Print Assumptions C104_objects_that_never_scale_are_rotated_partial.

(** The quaternion such an object reports has norm one, turns directions exactly as the
    object does, and is the only one that does except for its negative; the component that
    is largest in magnitude is positive.  Missing: scaled objects, see the refutation. *)
Theorem C104_the_quaternion_turns_directions_like_the_object_partial : forall o, rotates (get_world_transform o) ->
  unit_quat (get_quaternion o) /\ leading_positive (get_quaternion o) /\
  (forall a b c, to_world_coordinates o (vector a b c) = turned_by (get_quaternion o) (vector a b c)) /\
  forall q, unit_quat q -> (forall a b c, to_world_coordinates o (vector a b c) = turned_by q (vector a b c)) ->
    same_rotation (get_quaternion o) q.
Proof. exact rotation_quat. Qed.
Print Assumptions C104_the_quaternion_turns_directions_like_the_object_partial.

(** get_orientation and get_quaternion agree *)
Theorem C104_orientation_and_quaternion_agree_partial : forall asort cs h x o,
  run_prog asort cs empty_heap = Ok h -> rotates (get_world_transform o) -> get h x = Some o ->
  get_orientation o = turned_by (get_quaternion o) (vector 0 0 1).
Proof. exact orientation_quat. Qed.
Print Assumptions C104_orientation_and_quaternion_agree_partial.

(** Moving or rotating the object [l] multiplies the quaternion of every object [x] by the
    quaternion of the movement, once for each time [x] is listed among the parts of [l]. *)
Theorem C104_a_rotation_multiplies_quaternions_partial : forall asort cs h l m h' x o o',
  run_prog asort cs empty_heap = Ok h -> rotates (get_world_transform o) ->
  rigid m -> apply_motion asort l m h = Ok h' -> get h x = Some o -> get h' x = Some o' ->
  same_rotation (get_quaternion o') (qmul (qpower (times h l x) (motion_quat m)) (get_quaternion o)).
Proof. exact moved_quat. Qed.
Print Assumptions C104_a_rotation_multiplies_quaternions_partial.

(** The same for any sequence of movements and rotations of one object *)
Theorem C104_quaternions_of_histories_partial : forall asort cs h l o ms h' o',
  run_prog asort cs empty_heap = Ok h -> rotates (get_world_transform o) -> get h l = Some o ->
  Forall rigid ms -> run_prog asort (map (CMotion l) ms) h = Ok h' -> get h' l = Some o' ->
  same_rotation (get_quaternion o') (qmul (motions_quat ms) (get_quaternion o)).
Proof. exact history_quat. Qed.
Print Assumptions C104_quaternions_of_histories_partial.

(** Objects that were scaled and moved but never rotated report no rotation. *)
Theorem C104_scaling_alone_is_no_rotation_partial : forall o x y z a b c, 0 < x -> 0 < y -> 0 < z ->
  get_world_transform o = M4 (V4 x 0 0 a) (V4 0 y 0 b) (V4 0 0 z c) (V4 0 0 0 1) -> get_quaternion o = qone.
Proof. exact only_scaled. Qed.
Print Assumptions C104_scaling_alone_is_no_rotation_partial.

Example C104_hypotheses : forall asort, exists h h' o o', run_prog asort turned_calls empty_heap = Ok h /\ Forall never_scales turned_calls /\
  apply_motion asort 2%nat (RotX 40 Deg) h = Ok h' /\ get h 1%nat = Some o /\ get h' 1%nat = Some o' /\ times h 2%nat 1%nat = 2%nat.
Proof. exact turned_ok. Qed.

(** C104 fails for scaled objects: rotate_z(90) and scale_all(2) report a rotation by about
    73.7 degrees, and x is not turned to y. *)
Theorem C104_scaled_objects_refuted : forall asort, exists h o,
  run_prog asort scaled_program empty_heap = Ok h /\ get h 0%nat = Some o /\
  get_quaternion o = Q 0 0 (3 / 5) (4 / 5) /\
  to_world_coordinates o (vector 1 0 0) = vector 0 2 0 /\
  turned_by (get_quaternion o) (vector 1 0 0) = vector (7 / 25) (24 / 25) 0.
Proof. exact scaled_wrong. Qed.
Print Assumptions C104_scaled_objects_refuted.

(** Evenly scaled objects, exactly: an object that turns directions by [q] and stretches them by [s] reports 4 s k q with 1 - s added
    to the leading component k, divided by the norm; that is the right rotation only if [s] is 1 or [q] is no rotation or half a
    turn about an axis. *)
Theorem C104_evenly_scaled_objects_exactly : forall o q s, 0 < s -> unit_quat q -> turns_and_stretches q s o ->
  skewed s q (get_quaternion o) /\ unit_quat (get_quaternion o) /\ (same_rotation (get_quaternion o) q <-> s = 1 \/ no_or_half_turn q).
Proof. exact scaled_right. Qed.
Print Assumptions C104_evenly_scaled_objects_exactly.
(** Every object of a program that moves, rotates and scales evenly is such an object. *)
Theorem C104_even_programs : forall asort cs h x o, run_prog asort cs empty_heap = Ok h -> Forall scales_evenly cs -> get h x = Some o ->
  exists q s, unit_quat q /\ 0 < s /\ turns_and_stretches q s o.
Proof. exact history_stretches. Qed.
Print Assumptions C104_even_programs.
Example C104_even_program : Forall scales_evenly scaled_program /\ forall asort, exists h o, run_prog asort scaled_program empty_heap = Ok h /\ get h 0%nat = Some o.
Proof.
  split; [|intro asort; destruct (scaled_wrong asort) as (h & o & H & G & _); eauto].
  unfold scaled_program, op_scale_all. repeat match goal with |- Forall _ (_ :: _) => constructor | |- Forall _ [] => constructor end; cbn [scales_evenly]; auto; lra.
Qed.
