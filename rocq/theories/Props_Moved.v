(** * C109: which boxes are stored after a solid, or a part of it, was moved *)
From Coq Require Import Reals List Bool ZArith Lra Lia.
Import ListNotations.
From Verif Require Import XR Arr Lin LinFacts Prim Csg Surf SpecGeom SpecTree World SpecWorld WorldFacts CsgProps WorldExamples SpecMoved MovedFacts MovedProps.
Open Scope R_scope.

(** After any history: if the part at [p] of a solid without shared parts is moved, the whole solid looks
    as [part_moved_to] says; in particular every stored box is determined. *)
Theorem C109_boxes_after_a_movement : forall asort cs h l s x p m t h',
  run_prog asort cs empty_heap = Ok h -> shape_of h l = Some s -> NoDup (parts h l) -> part_at h p l x ->
  motion_matrix m = Some t -> apply_motion asort x m h = Ok h' ->
  exists s', shape_of h' l = Some s' /\ part_moved_to asort t p s s'.
Proof. exact parts_moved. Qed.
Print Assumptions C109_boxes_after_a_movement.

(** Moving a solid and then moving it by nothing often enough makes all its boxes right, and changes
    nothing else. *)
Theorem C109_idle_movements_repair_the_boxes : forall asort cs h l s m h1 k h', argsort_ok asort ->
  run_prog asort cs empty_heap = Ok h -> shape_of h l = Some s -> NoDup (parts h l) ->
  apply_motion asort l m h = Ok h1 -> run_prog asort (repeat (CMotion l (Move 0 0 0)) k) h1 = Ok h' ->
  exists s1 s', shape_of h1 l = Some s1 /\ shape_of h' l = Some s' /\ surface_ids s' = surface_ids s1 /\ (forall q, inside s' q <-> inside s1 q) /\
    ((lag s <= S k)%nat -> boxes_current s').
Proof. exact idle_moves. Qed.
Print Assumptions C109_idle_movements_repair_the_boxes.

(** union(a, union(b, c)), whose root box is stale after one movement
    (C19_right_nested_union_refuted), needs one idle movement. *)
Example C109_three_cubes : forall asort, exists h h1 h2 h3 s, run_prog asort cubes3 empty_heap = Ok h /\ shape_of h 4%nat = Some s /\ NoDup (parts h 4%nat) /\ lag s = 2%nat /\
  apply_motion asort 4%nat (Move 10 0 0) h = Ok h1 /\ run_prog asort (repeat (CMotion 4%nat (Move 0 0 0)) 1) h1 = Ok h2 /\
  part_at h [OnRight; OnLeft] 4%nat 1%nat /\ apply_motion asort 1%nat (Move 10 0 0) h = Ok h3.
Proof.
  intro asort. do 5 eexists. split; [unfold cubes3; go; reflexivity|]. split; [reflexivity|]. split; [cbn; repeat constructor; cbn; intuition discriminate|]. split; [reflexivity|].
  split; [go; reflexivity|]. split; [cbn [repeat]; go; reflexivity|]. split; [|go; reflexivity].
  do 4 eexists. split; [reflexivity|]. split; [reflexivity|]. do 4 eexists. split; [reflexivity|]. split; reflexivity.
Qed.
