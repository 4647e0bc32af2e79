(** * Properties C17..C27, C69..C71: mutable world objects *)
From Coq Require Import Reals List Bool ZArith Lra.
Import ListNotations.
From Verif Require Import XR XRFacts Arr Lin LinFacts Prim Csg SpecCsg Surf SpecGeom SpecTree CsgProps
  World SpecWorld WorldFacts2 WorldFacts3 WorldFacts4 WorldFacts5 WorldExamples WorldProps.
Open Scope R_scope.

(** ** C17 *)
(** What the code does, for every CSG expression: a leaf is inverted as soon as it is
    subtracted at all. *)
Theorem C17_a_leaf_is_inverted_when_subtracted_at_all :
  forall asort e h h' s,
  run_prog asort (fst (calls e (length (h_objs h)))) h = Ok h' ->
  shape_of h' (snd (calls e (length (h_objs h)))) = Some s ->
  map s_nscale (surface_ids s) = map (fun k => if Nat.eqb k 0 then 1 else -1) (subtractions 0 e).
Proof. exact built_normals. Qed.
Print Assumptions C17_a_leaf_is_inverted_when_subtracted_at_all.

(** C17 for expressions in which no leaf is subtracted twice.  Missing: leaves
    subtracted two or more times, where the claim is false, see the refutation. *)
Theorem C17_csg_normals_partial :
  forall asort e h h' s,
  run_prog asort (fst (calls e (length (h_objs h)))) h = Ok h' ->
  shape_of h' (snd (calls e (length (h_objs h)))) = Some s ->
  Forall (fun k => (k <= 1)%nat) (subtractions 0 e) ->
  map s_nscale (surface_ids s) = map (fun k => if Nat.odd k then -1 else 1) (subtractions 0 e).
Proof. exact built_normals_once. Qed.
Print Assumptions C17_csg_normals_partial.

Example C17_hypotheses : forall asort, exists h s,
  run_prog asort (fst (calls solid4 0)) empty_heap = Ok h /\
  shape_of h (snd (calls solid4 0)) = Some s /\ Forall (fun k => (k <= 1)%nat) (subtractions 0 solid4) /\
  subtractions 0 solid4 = [0; 1; 0; 0; 1]%nat.
Proof. exact solid4_ok. Qed.

(** C17 fails for a - (b - c): c is subtracted twice and still inverted. *)
Theorem C17_nested_difference_refuted :
  forall asort, exists h s,
  run_prog asort (fst (calls nested 0)) empty_heap = Ok h /\ shape_of h (snd (calls nested 0)) = Some s /\
  subtractions 0 nested = [0; 1; 2]%nat /\ map s_nscale (surface_ids s) = [1; -1; -1].
Proof. exact nested_normals. Qed.
Print Assumptions C17_nested_difference_refuted.

(** ** C18 *)
Theorem C18_bounding_volume_after_any_history :
  forall asort cs h x o p m,
  run_prog asort cs empty_heap = Ok h -> get h x = Some o -> o_kind o = KSurf p m -> prim_ok p ->
  exists s b, shape_of h x = Some (Leaf s b) /\ s_prim s = p /\ s_world s = get_world_transform o /\
    (forall q, placed s q -> in_box b q) /\
    exists x0 x1 y0 y1 z0 z1, b = Box (Fin x0, Fin x1) (Fin y0, Fin y1) (Fin z0, Fin z1) /\
      let corners := map (to_world_coordinates o) (bounding_points p) in
      In x0 (map vx corners) /\ In x1 (map vx corners) /\ In y0 (map vy corners) /\ In y1 (map vy corners) /\
      In z0 (map vz corners) /\ In z1 (map vz corners).
Proof. exact box_history. Qed.
Print Assumptions C18_bounding_volume_after_any_history.

Example C18_hypotheses : forall asort, exists h h', run_prog asort workshop empty_heap = Ok h /\
  apply_motion asort 4%nat (Move 1 2 3) h = Ok h' /\ apply_motion asort 6%nat (Move 1 2 3) h <> Diverge /\
  apply_motion asort 3%nat (Move 1 0 0) h <> Diverge.
Proof. exact workshop_moves. Qed.

(** ** C19 *)
(** Objects that were not moved yet have current boxes. *)
Theorem C19_fresh_boxes_are_current :
  forall asort cs h l s, argsort_ok asort -> Forall still cs -> run_prog asort cs empty_heap = Ok h ->
  shape_of h l = Some s -> boxes_current s.
Proof. exact fresh_boxes_current. Qed.
Print Assumptions C19_fresh_boxes_are_current.

(** C19 for trees without shared parts in which no union or intersection has a CSG
    object as its right operand ([right_simple]); the program [cs] may contain any
    earlier movements.  Missing: trees that are not [right_simple]. *)
Theorem C19_moving_keeps_boxes_current_partial :
  forall asort cs h l o m h',
  argsort_ok asort -> run_prog asort cs empty_heap = Ok h ->
  get h l = Some o -> is_shape (o_kind o) -> NoDup (parts h l) -> right_simple h l ->
  apply_motion asort l m h = Ok h' ->
  exists s, shape_of h' l = Some s /\ boxes_current s.
Proof. exact moved_tree_current. Qed.
Print Assumptions C19_moving_keeps_boxes_current_partial.

Example C19_hypotheses : forall asort, exists h, run_prog asort workshop empty_heap = Ok h /\
  (exists s, shape_of h 4%nat = Some s) /\ NoDup (parts h 4%nat) /\ parts h 4%nat = [4; 2; 0; 1; 3]%nat /\
  right_simple h 4%nat /\ NoDup (parts h 6%nat) /\ parts h 6%nat = [6; 4; 2; 0; 1; 3; 5]%nat.
Proof. exact workshop_ok. Qed.
Example C19_hypotheses_still : Forall no_set workshop /\ Forall ok_call workshop /\ Forall still workshop.
Proof. exact workshop_calls. Qed.

(** C19 fails for union(a, union(b, c)): after move(10, 0, 0) the box of the root is
    stale, and does not contain the moved solid. *)
Theorem C19_right_nested_union_refuted :
  forall asort, argsort_ok asort -> exists h h' s q,
  run_prog asort cubes3 empty_heap = Ok h /\ NoDup (parts h 4%nat) /\
  apply_motion asort 4%nat (Move 10 0 0) h = Ok h' /\
  ~ box_current asort h' 4%nat /\ shape_of h' 4%nat = Some s /\ inside s q /\ ~ in_box (shape_box s) q.
Proof. exact stale_root. Qed.
Print Assumptions C19_right_nested_union_refuted.

(** ** C20 *)
(** C20 for a part that is a surface and an operand of the CSG object itself, without
    sharing.  Missing: deeper parts, see the refutation. *)
Theorem C20_moving_an_operand_updates_the_box_partial :
  forall asort cs h y oy op a b c oc p mt m h',
  run_prog asort cs empty_heap = Ok h ->
  get h y = Some oy -> o_kind oy = KCsg op a b -> NoDup (parts h y) ->
  c = a \/ c = b -> get h c = Some oc -> o_kind oc = KSurf p mt ->
  apply_motion asort c m h = Ok h' -> box_current asort h' y.
Proof. exact moved_operand_current. Qed.
Print Assumptions C20_moving_an_operand_updates_the_box_partial.

Example C20_hypotheses : forall asort, exists h h',
  run_prog asort workshop empty_heap = Ok h /\ NoDup (parts h 2%nat) /\
  apply_motion asort 0%nat (Move 1 0 0) h = Ok h'.
Proof. exact operand_example. Qed.

(** C20 fails for union(union(a, b), c) when a is moved. *)
Theorem C20_moving_a_grandchild_refuted :
  forall asort, argsort_ok asort -> exists h h' s q,
  run_prog asort cubes3' empty_heap = Ok h /\ NoDup (parts h 4%nat) /\ In 0%nat (parts h 4%nat) /\
  apply_motion asort 0%nat (Move (1 / 2) 0 0) h = Ok h' /\
  ~ box_current asort h' 4%nat /\ shape_of h' 4%nat = Some s /\ inside s q /\ ~ in_box (shape_box s) q.
Proof. exact stale_enclosing. Qed.
Print Assumptions C20_moving_a_grandchild_refuted.

(** ** C21 *)
Theorem C21_object_coordinates_stay_consistent :
  forall asort cs h x o, run_prog asort cs empty_heap = Ok h -> get h x = Some o -> consistent o.
Proof. exact consistent_history. Qed.
Print Assumptions C21_object_coordinates_stay_consistent.
Example C21_hypotheses : forall asort, exists h o, run_prog asort (workshop ++ [CMotion 6%nat (Move 1 2 3)]) empty_heap = Ok h /\
  get h 5%nat = Some o /\ to_world_coordinates o (point 0 0 0) = point 1 2 3.
Proof.
  intro asort. do 2 eexists. split; [unfold workshop; go; reflexivity|]. split; [go; reflexivity|]. exact (shift_org 1 2 3).
Qed.

(** ** C22 *)
Theorem C22_histories_compose :
  forall asort cs h l o ms h',
  run_prog asort cs empty_heap = Ok h -> get h l = Some o ->
  run_prog asort (map (CMotion l) ms) h = Ok h' ->
  exists t o', composed ms = Some t /\ get h' l = Some o' /\
    get_world_transform o' = mmul t (get_world_transform o) /\
    forall v, to_world_coordinates o' v = mapply t (to_world_coordinates o v).
Proof. exact history_composes. Qed.
Print Assumptions C22_histories_compose.

Theorem C22_moves_add_up_and_commute :
  forall x y z x' y' z' a b c,
  motion_matrix (Move x y z) = Some a -> motion_matrix (Move x' y' z') = Some b ->
  motion_matrix (Move (x + x') (y + y') (z + z')) = Some c -> mmul b a = c /\ mmul a b = c.
Proof. exact moves_add. Qed.
Print Assumptions C22_moves_add_up_and_commute.

Theorem C22_move_shifts_points :
  forall a b c t p, motion_matrix (Move a b c) = Some t -> vw p = 1 ->
  mapply t p = V4 (vx p + a) (vy p + b) (vz p + c) 1.
Proof. exact move_coords. Qed.
Print Assumptions C22_move_shifts_points.

Theorem C22_rotations_about_one_axis_add :
  forall ax a b u m n k,
  motion_matrix (rot ax a u) = Some m -> motion_matrix (rot ax b u) = Some n ->
  motion_matrix (rot ax (a + b) u) = Some k -> mmul n m = k.
Proof. exact rot_add. Qed.
Print Assumptions C22_rotations_about_one_axis_add.

Theorem C22_rotations_are_undone_by_the_opposite_angle :
  forall ax a u m n,
  motion_matrix (rot ax a u) = Some m -> motion_matrix (rot ax (- a) u) = Some n ->
  mmul n m = mid /\ mmul m n = mid.
Proof. exact rot_undo. Qed.
Print Assumptions C22_rotations_are_undone_by_the_opposite_angle.

Theorem C22_quarter_turns_follow_the_right_hand_rule :
  motion_matrix (RotX 90 Deg) = Some (M4 (V4 1 0 0 0) (V4 0 0 (-1) 0) (V4 0 1 0 0) (V4 0 0 0 1)) /\
  motion_matrix (RotY 90 Deg) = Some (M4 (V4 0 0 1 0) (V4 0 1 0 0) (V4 (-1) 0 0 0) (V4 0 0 0 1)) /\
  motion_matrix (RotZ 90 Deg) = Some (M4 (V4 0 (-1) 0 0) (V4 1 0 0 0) (V4 0 0 1 0) (V4 0 0 0 1)).
Proof. exact rot_quarter. Qed.
Print Assumptions C22_quarter_turns_follow_the_right_hand_rule.

Theorem C22_moves_and_rotations_preserve_distances :
  forall m t p q, rigid m -> motion_matrix m = Some t -> vw p = 1 -> vw q = 1 ->
  dist (mapply t p) (mapply t q) = dist p q.
Proof. exact rigid_dist. Qed.
Print Assumptions C22_moves_and_rotations_preserve_distances.

Theorem C22_scale_multiplies_coordinates :
  forall a b c t p, motion_matrix (Scale a b c) = Some t ->
  0 <= a /\ 0 <= b /\ 0 <= c /\ mapply t p = V4 (a * vx p) (b * vy p) (c * vz p) (vw p).
Proof. exact scale_coords. Qed.
Print Assumptions C22_scale_multiplies_coordinates.

Example C22_hypotheses :
  motion_matrix (rot 1 30 Deg) <> None /\ motion_matrix (Move 1 2 3) <> None /\ rigid (RotZ 2 Rad).
Proof. cbn. repeat split; discriminate. Qed.

(** ** C23 *)
(** C23 for the arguments that are rejected (negative scale factors, unknown angle
    units): the heap is exactly what it was.  Missing: operations that raise because
    the new transform cannot be inverted, see the refutation. *)
Theorem C23_rejected_arguments_change_nothing_partial :
  forall asort l m h, motion_matrix m = None -> apply_motion asort l m h = Raise ValueError h.
Proof. exact rejected_leaves_unchanged. Qed.
Print Assumptions C23_rejected_arguments_change_nothing_partial.

Theorem C23_which_arguments_are_rejected :
  forall m, motion_matrix m = None <->
  match m with
  | Scale x y z => x < 0 \/ y < 0 \/ z < 0
  | RotX _ u | RotY _ u | RotZ _ u => u = OtherUnit
  | _ => False
  end.
Proof. exact rejected. Qed.
Print Assumptions C23_which_arguments_are_rejected.

(** C23 fails for scale(0, 1, 1): it raises LinAlgError, the world transform has
    changed and the object transform has not. *)
Theorem C23_singular_scale_refuted :
  forall asort, exists h h' o o',
  run_prog asort [CSurface unit_cube Absorber] empty_heap = Ok h /\
  apply_motion asort 0%nat (Scale 0 1 1) h = Raise LinAlgError h' /\
  get h 0%nat = Some o /\ get h' 0%nat = Some o' /\
  get_world_transform o = mid /\ get_world_transform o' <> mid /\
  get_object_transform o' = mid /\ ~ consistent o'.
Proof. exact half_scaled. Qed.
Print Assumptions C23_singular_scale_refuted.

(** ** C24 *)
(** Any object, in particular a group with nested members: every object is multiplied
    once per occurrence among the parts; the object itself once. *)
Theorem C24_transform_reaches_every_part_once_per_listing :
  forall asort cs h l m h' t,
  run_prog asort cs empty_heap = Ok h -> motion_matrix m = Some t -> apply_motion asort l m h = Ok h' ->
  (forall x o, get h x = Some o -> exists o', get h' x = Some o' /\
     get_world_transform o' = mmul (power (times h l x) t) (get_world_transform o)) /\
  (forall x o o', ~ In x (parts h l) -> get h x = Some o -> get h' x = Some o' -> unmoved o o') /\
  times h l l = 1%nat.
Proof. exact any_moved. Qed.
Print Assumptions C24_transform_reaches_every_part_once_per_listing.

(** A group of objects that have no parts of their own *)
Theorem C24_group_of_simple_members :
  forall asort cs h g og ms m h' t,
  run_prog asort cs empty_heap = Ok h ->
  get h g = Some og -> o_kind og = KGroup ms ->
  (forall x, In x ms -> exists ox, get h x = Some ox /\ children (o_kind ox) = []) ->
  motion_matrix m = Some t -> apply_motion asort g m h = Ok h' ->
  (exists og', get h' g = Some og' /\ get_world_transform og' = mmul t (get_world_transform og)) /\
  (forall x o, x <> g -> get h x = Some o -> exists o', get h' x = Some o' /\
     get_world_transform o' = mmul (power (count_occ Nat.eq_dec ms x) t) (get_world_transform o)) /\
  (forall x o o', x <> g -> ~ In x ms -> get h x = Some o -> get h' x = Some o' -> unmoved o o').
Proof. exact flat_group_moved. Qed.
Print Assumptions C24_group_of_simple_members.

Example C24_hypotheses : forall asort, exists h h',
  run_prog asort [CPlain; CSurface (PSphere 1) Mirror; CGroup [0; 1; 0]%nat] empty_heap = Ok h /\
  apply_motion asort 2%nat (Move 1 0 0) h = Ok h'.
Proof. exact group_example. Qed.

(** ** C25 *)
Theorem C25_csg_tree_moves_every_node_once :
  forall asort cs h l m h' t,
  run_prog asort cs empty_heap = Ok h -> NoDup (parts h l) ->
  motion_matrix m = Some t -> apply_motion asort l m h = Ok h' ->
  (forall x o, get h x = Some o -> exists o', get h' x = Some o' /\ o_id o' = o_id o /\ o_kind o' = o_kind o) /\
  (forall x o o', In x (parts h l) -> get h x = Some o -> get h' x = Some o' ->
     get_world_transform o' = mmul t (get_world_transform o)) /\
  (forall x o o', ~ In x (parts h l) -> get h x = Some o -> get h' x = Some o' -> unmoved o o').
Proof. exact tree_moved_once. Qed.
Print Assumptions C25_csg_tree_moves_every_node_once.

Example C25_hypotheses : forall asort, exists h, run_prog asort workshop empty_heap = Ok h /\
  (exists s, shape_of h 4%nat = Some s) /\ NoDup (parts h 4%nat) /\ parts h 4%nat = [4; 2; 0; 1; 3]%nat /\
  right_simple h 4%nat /\ NoDup (parts h 6%nat) /\ parts h 6%nat = [6; 4; 2; 0; 1; 3; 5]%nat.
Proof. exact workshop_ok. Qed.

(** When the operands are shared the claim fails: union(s, s).move(1, 0, 0) puts s at 2. *)
Theorem C25_shared_operand_refuted :
  forall asort, exists h h' o o',
  run_prog asort [CSurface unit_cube Absorber; CCsg UNION 0%nat 0%nat] empty_heap = Ok h /\
  apply_motion asort 1%nat (Move 1 0 0) h = Ok h' /\
  get h 0%nat = Some o /\ get h' 0%nat = Some o' /\ get_position o = point 0 0 0 /\ get_position o' = point 2 0 0.
Proof. exact shared_twice. Qed.
Print Assumptions C25_shared_operand_refuted.

(** ** C26 *)
(** C26 for the pinned objects, when no pinned object is a part of one that comes
    later in the list; [h1] is any heap at all, whatever happened inside. *)
Theorem C26_pinned_objects_are_restored_partial :
  forall asort ls h0 h1 h2,
  (forall l, In l ls -> exists o, get h0 l = Some o) ->
  pin_exit asort ls (pin_enter h0 ls) h1 = Ok h2 ->
  ForallOrdPairs (fun a b => a = b \/ ~ In a (parts h1 b)) ls ->
  forall l o, In l ls -> get h0 l = Some o ->
  exists o2, get h2 l = Some o2 /\ get_world_transform o2 = get_world_transform o.
Proof. exact pinned_restored. Qed.
Print Assumptions C26_pinned_objects_are_restored_partial.

(** C26 for the parts, when the pinned objects have no common part and the history
    inside the context moves whole pinned objects.  Missing: parts moved on their own
    inside the context are not restored. *)
Theorem C26_parts_are_restored_after_whole_moves_partial :
  forall asort cs ls ms h0 h1 h2,
  run_prog asort cs empty_heap = Ok h0 ->
  (forall l, In l ls -> (exists o, get h0 l = Some o) /\ NoDup (parts h0 l)) ->
  ForallOrdPairs (apart_from h0) ls ->
  Forall (moves_only ls) ms -> run_prog asort ms h0 = Ok h1 ->
  pin_exit asort ls (pin_enter h0 ls) h1 = Ok h2 ->
  forall l x o, In l ls -> In x (parts h0 l) -> get h0 x = Some o ->
  exists o2, get h2 x = Some o2 /\ get_world_transform o2 = get_world_transform o.
Proof. exact pin_after_whole_moves. Qed.
Print Assumptions C26_parts_are_restored_after_whole_moves_partial.

Example C26_hypotheses : forall asort, exists h h1 h2,
  run_prog asort workshop empty_heap = Ok h /\
  run_prog asort [CMotion 4%nat (Move 1 2 3); CMotion 5%nat (Move 3 0 0)] h = Ok h1 /\
  pin_exit asort [4; 5]%nat (pin_enter h [4; 5]%nat) h1 = Ok h2 /\
  ForallOrdPairs (apart_from h) [4; 5]%nat /\ parts h 4%nat = [4; 2; 0; 1; 3]%nat.
Proof. exact pinned_example. Qed.

(** C26 fails for pin(child, parent): the child ends up displaced. *)
Theorem C26_child_before_parent_refuted :
  forall asort, exists h h1 h2 o o2,
  run_prog asort [CSurface unit_cube Absorber; CSurface unit_cube Absorber; CCsg UNION 0%nat 1%nat] empty_heap = Ok h /\
  apply_motion asort 2%nat (Move 1 0 0) h = Ok h1 /\
  pin_exit asort [0; 2]%nat (pin_enter h [0; 2]%nat) h1 = Ok h2 /\
  get h 0%nat = Some o /\ get h2 0%nat = Some o2 /\ get_position o = point 0 0 0 /\ get_position o2 = point (-1) 0 0.
Proof. exact pin_child_first. Qed.
Print Assumptions C26_child_before_parent_refuted.

(** ** C27: also in programs that catch exceptions and go on *)
Theorem C27_ids_are_unique :
  forall asort cs h, run_catching asort cs empty_heap = Some h ->
  forall x y ox oy, get h x = Some ox -> get h y = Some oy -> o_id ox = o_id oy -> x = y.
Proof. exact unique_ids. Qed.
Print Assumptions C27_ids_are_unique.

Theorem C27_an_id_never_changes :
  forall asort cs cs' h h' x o,
  run_catching asort cs empty_heap = Some h -> run_catching asort cs' h = Some h' ->
  get h x = Some o -> exists o', get h' x = Some o' /\ o_id o' = o_id o.
Proof. exact ids_kept. Qed.
Print Assumptions C27_an_id_never_changes.

Example C27_hypotheses : run_catching (argsort_stable xsle PInf)
  [CSurface (PSphere 1) Mirror; CPlain; CMotion 0%nat (RotX 1 OtherUnit); CGroup [0; 7]%nat; CPlain] empty_heap <> None.
Proof. cbn. discriminate. Qed.

(** ** C69 *)
Theorem C69_movement_calls_return_without_cyclic_groups :
  forall asort cs c h, Forall no_set cs -> run_prog asort cs empty_heap = Ok h -> run_call asort c h <> Diverge.
Proof. exact always_returns. Qed.
Print Assumptions C69_movement_calls_return_without_cyclic_groups.
Example C69_hypotheses : forall asort, Forall no_set workshop /\ exists h, run_prog asort workshop empty_heap = Ok h.
Proof. intro asort. split; [repeat constructor|]. destruct (workshop_ok asort) as (h & R & _). eauto. Qed.

(** and a group that contains itself recurses without end *)
Theorem C69_self_containing_group_refuted :
  forall asort, exists h, run_prog asort [CGroup []; CSetMembers 0%nat [0%nat]] empty_heap = Ok h /\
  run_call asort (CMotion 0%nat (Move 1 0 0)) h = Diverge.
Proof. exact self_group_diverges. Qed.
Print Assumptions C69_self_containing_group_refuted.

(** ** C70 *)
Theorem C70_moves_and_rotations_never_raise :
  forall asort cs h l o m t,
  run_prog asort cs empty_heap = Ok h -> Forall no_set cs -> Forall affine_call cs ->
  get h l = Some o -> rigid m -> motion_matrix m = Some t ->
  exists h', apply_motion asort l m h = Ok h'.
Proof. exact rigid_succeeds. Qed.
Print Assumptions C70_moves_and_rotations_never_raise.

Example C70_hypotheses : Forall no_set workshop /\ Forall affine_call workshop /\ rigid (RotY 30 Deg).
Proof. repeat split; repeat constructor. Qed.

(** ** C71: from the program to the solid that rays see *)
Theorem C71_a_built_and_moved_solid_is_seen_where_it_is_partial :
  forall asort cs h l o m h',
  argsort_ok asort -> Forall ok_call cs -> run_prog asort cs empty_heap = Ok h ->
  get h l = Some o -> is_shape (o_kind o) -> NoDup (parts h l) -> right_simple h l ->
  ok_call (CMotion l m) -> apply_motion asort l m h = Ok h' ->
  exists s, shape_of h' l = Some s /\ forall r, boxes_fit s -> world_ray r -> good_ray s r ->
    exists L, forall t, ~ In t L ->
      (inside_at xsle (Fin t) (fst (shape_intersect asort s r)) = true <-> inside s (ray_at r t)).
Proof. exact program_to_solid. Qed.
Print Assumptions C71_a_built_and_moved_solid_is_seen_where_it_is_partial.

Example C71_hypotheses : Forall no_set workshop /\ Forall ok_call workshop /\ Forall still workshop.
Proof. exact workshop_calls. Qed.
