(** * Properties C19 and C20, exactly: the boxes after an object was moved *)
From Coq Require Import Reals List Bool Arith Lia Lra.
Import ListNotations.
From Verif Require Import XR XRFacts Lin LinFacts Prim Csg CsgProps Surf World SpecWorld WorldFacts2 WorldFacts3 WorldExamples WorldProps SpecMove MoveBoxes.
Open Scope R_scope.

(** When a whole object without shared parts has moved, the box of every CSG object in it
    is computed from the present box of its first operand and from the box of the second
    as it was last seen; it is current exactly when that makes no difference. *)
Theorem C19_boxes_after_a_move_exactly :
  forall asort cs h m l o h', run_prog asort cs empty_heap = Ok h ->
  get h l = Some o -> is_shape (o_kind o) -> NoDup (parts h l) -> apply_motion asort l m h = Ok h' ->
  forall x ox op a b, In x (parts h l) -> get h x = Some ox -> o_kind ox = KCsg op a b ->
  exists A B B', box_of h' a = Some A /\ last_seen asort h h' b B /\ box_of h' b = Some B' /\
    box_of h' x = Some (csg_box asort op A B) /\
    (box_current asort h' x <-> csg_box asort op A B = csg_box asort op A B').
Proof. intros asort cs h m l o h' R. exact (boxes_inside asort cs h m R l o h'). Qed.
Print Assumptions C19_boxes_after_a_move_exactly.

(** When one operand of a CSG object has moved, the box of the CSG object is computed from
    that operand's box as it was last seen and from the other's. *)
Theorem C20_moving_an_operand_exactly :
  forall asort cs h m y oy op a b l h', run_prog asort cs empty_heap = Ok h ->
  get h y = Some oy -> o_kind oy = KCsg op a b -> NoDup (parts h y) -> l = a \/ l = b ->
  apply_motion asort l m h = Ok h' ->
  exists A B, box_of h' y = Some (csg_box asort op A B) /\
    (l = a -> last_seen asort h h' a A /\ box_of h b = Some B) /\
    (l = b -> box_of h a = Some A /\ last_seen asort h h' b B).
Proof. intros asort cs h m y oy op a b l h' R. exact (operand_moved asort cs h m R y oy op a b l h'). Qed.
Print Assumptions C20_moving_an_operand_exactly.

(** Moving a part of an operand leaves the box as it was. *)
Theorem C20_moving_deeper_parts_changes_nothing :
  forall asort cs h m y oy op a b l o h', run_prog asort cs empty_heap = Ok h ->
  get h y = Some oy -> o_kind oy = KCsg op a b -> NoDup (parts h y) ->
  In l (parts h y) -> get h l = Some o -> l <> y -> l <> a -> l <> b ->
  apply_motion asort l m h = Ok h' -> box_of h' y = box_of h y.
Proof. intros asort cs h m y oy op a b l o h' R. exact (deeper_moved asort cs h m R y oy op a b l o h'). Qed.
Print Assumptions C20_moving_deeper_parts_changes_nothing.

(** So does moving anything the object and its operands are no part of. *)
Theorem C20_other_boxes_stay :
  forall asort cs h m l o h', run_prog asort cs empty_heap = Ok h ->
  get h l = Some o -> is_shape (o_kind o) -> apply_motion asort l m h = Ok h' ->
  forall x, ~ In x (parts h l) ->
  (forall ox op a b, get h x = Some ox -> o_kind ox = KCsg op a b -> ~ In a (parts h l) /\ ~ In b (parts h l)) ->
  box_of h' x = box_of h x.
Proof. intros asort cs h m l o h' R. exact (boxes_outside asort cs h m R l o h'). Qed.
Print Assumptions C20_other_boxes_stay.

(** union(union(a, b), c): the root, an operand and a part of the operand move. *)
Example C20_exactly_hypotheses : forall asort, exists h h1 h2 h3 oy oa o,
  run_prog asort cubes3' empty_heap = Ok h /\ get h 4%nat = Some oy /\ o_kind oy = KCsg UNION 3%nat 2%nat /\
  is_shape (o_kind oy) /\ NoDup (parts h 4%nat) /\ In 3%nat (parts h 4%nat) /\ In 0%nat (parts h 4%nat) /\
  get h 3%nat = Some oa /\ o_kind oa = KCsg UNION 0%nat 1%nat /\ get h 0%nat = Some o /\ is_shape (o_kind o) /\
  apply_motion asort 4%nat (Move 10 0 0) h = Ok h1 /\ apply_motion asort 3%nat (Move 1 0 0) h = Ok h2 /\
  apply_motion asort 0%nat (Move (1 / 2) 0 0) h = Ok h3 /\ ~ In 2%nat (parts h 0%nat) /\
  last_seen asort h h2 3%nat (csg_box asort UNION (bounding_box (bounding_points unit_cube)) (bounding_box (bounding_points unit_cube))).
Proof.
  intro asort. do 7 eexists. split; [unfold cubes3'; go; reflexivity|]. split; [reflexivity|]. split; [reflexivity|]. split; [exact I|].
  split; [cbn; repeat constructor; cbn; intuition discriminate|]. split; [cbn; auto|]. split; [cbn; auto 10|].
  split; [reflexivity|]. split; [reflexivity|]. split; [reflexivity|]. split; [exact I|].
  split; [go; reflexivity|]. split; [go; reflexivity|]. split; [go; reflexivity|]. split; [cbn; intuition discriminate|].
  unfold last_seen. cbn [get nth_error h_objs o_kind]. do 2 eexists. split; [reflexivity|]. split; [reflexivity|]. reflexivity.
Qed.
