(** * Property C26: what leaving a pin context does, exactly *)
From Coq Require Import Reals List Bool Lra.
Import ListNotations.
From Verif Require Import XR Lin Prim Csg Surf World SpecWorld WorldExamples PinExact.
Open Scope R_scope.

(** Leaving [pin(obj)], whatever happened in between ([h0] is the world on entry, [h1]
    the world on leaving): one single correction, the one that takes the pinned object
    back to where it was, is applied to everything, as often as the thing is part of the
    object.  A part (that occurs once) is therefore back in its place if and only if it
    still sits where it sat relative to the whole. *)
Theorem C26_one_pinned_object_exactly :
  forall asort l h0 h1 h2 o0 o1, get h0 l = Some o0 -> get h1 l = Some o1 ->
  pin_exit asort [l] (pin_enter h0 [l]) h1 = Ok h2 ->
  exists c, mmul c (get_world_transform o1) = get_world_transform o0 /\
    (forall x ox, get h1 x = Some ox -> exists ox2, get h2 x = Some ox2 /\
       get_world_transform ox2 = mmul (power (times h1 l x) c) (get_world_transform ox)) /\
    (forall x ox, get h0 x = Some ox -> times h1 l x = 1%nat ->
       ((exists ox2, get h2 x = Some ox2 /\ get_world_transform ox2 = get_world_transform ox)
        <-> same_place h0 h1 l x)).
Proof. exact pin_one. Qed.
Print Assumptions C26_one_pinned_object_exactly.

(** The case that fails: a part moved on its own inside the context is not put back
    (and the hypotheses above are met: the context is left without an exception). *)
Theorem C26_part_moved_alone_refuted :
  forall asort, exists h h1 h2 o o2,
  run_prog asort [CSurface unit_cube Absorber; CSurface unit_cube Absorber; CCsg UNION 0%nat 1%nat] empty_heap = Ok h /\
  apply_motion asort 0%nat (Move 1 0 0) h = Ok h1 /\
  pin_exit asort [2]%nat (pin_enter h [2]%nat) h1 = Ok h2 /\
  get h 0%nat = Some o /\ get h2 0%nat = Some o2 /\ get_position o = point 0 0 0 /\ get_position o2 = point 1 0 0.
Proof. exact pin_part_alone. Qed.
Print Assumptions C26_part_moved_alone_refuted.

(** Each part of that object is part of it once. *)
Example C26_parts_occur_once : forall asort, exists h,
  run_prog asort [CSurface unit_cube Absorber; CSurface unit_cube Absorber; CCsg UNION 0%nat 1%nat] empty_heap = Ok h /\
  times h 2%nat 0%nat = 1%nat /\ times h 2%nat 1%nat = 1%nat /\ times h 2%nat 2%nat = 1%nat.
Proof.
  intro asort. destruct (pin_part_alone asort) as (h & _ & _ & _ & _ & R & _). exists h. split; [exact R|].
  revert R. go. intro R. injection R as <-. repeat split; reflexivity.
Qed.
