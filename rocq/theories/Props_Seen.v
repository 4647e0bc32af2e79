(** * Props_Seen: what the hits of a CSG object show, whatever its history *)
From Coq Require Import Reals List Bool ZArith.
Import ListNotations.
From Verif Require Import XR Csg SpecCsg CsgFacts CsgProps Lin Prim Surf SpecGeom SpecTree SpecSeen PrimFacts2 UnionFacts SeenFacts SeenWorld
  SeenProps World SpecWorld WorldFacts WorldFacts4.
Open Scope R_scope.

(** ** C102 *)
(** For every successful program, with any movements of whole objects or of parts: the hits of
    the object at [l] along a ray delimit what [shown] describes from the stored boxes.  No
    assumption is made on those boxes: they may be too small or left behind. *)
Theorem C102_hits_delimit_what_is_shown :
  forall asort, argsort_ok asort ->
  forall cs h l s, Forall ok_call cs -> run_prog asort cs empty_heap = Ok h -> shape_of h l = Some s ->
  forall asort' r, argsort_ok asort' -> world_ray r -> good_ray s r ->
  exists L, forall t, ~ In t L ->
    (inside_at xsle (Fin t) (fst (shape_intersect asort' s r)) = true <-> shown s r (ray_at r t)).
Proof. exact built_shown. Qed.
Print Assumptions C102_hits_delimit_what_is_shown.

(** the union of the cuboids [0,1]^3 and [2,3]x[0,1]^2: the second cuboid is seen along x, and
    is not seen along y *)
Example C102_case : forall asort, argsort_ok asort ->
  exists h s, run_prog asort two_calls empty_heap = Ok h /\ shape_of h 2%nat = Some s /\
  Forall ok_call two_calls /\ simple_cuts s /\
  world_ray along /\ good_ray s along /\ shown s along (point (5/2) (1/2) (1/2)) /\
  world_ray side_ray /\ good_ray s side_ray /\ ~ shown s side_ray (point (5/2) (1/2) (1/2)).
Proof. exact two_built. Qed.

(** The box a union stores, for parts that overlap or are apart along each axis *)
Theorem C102_the_box_of_a_union :
  forall asort, argsort_ok asort ->
  forall a b ex0 ex1 ey0 ey1 ez0 ez1 ax0 ax1 ay0 ay1 az0 az1 bx0 bx1 by0 by1 bz0 bz1,
  a = fin_box ax0 ax1 ay0 ay1 az0 az1 -> b = fin_box bx0 bx1 by0 by1 bz0 bz1 ->
  ax0 < ax1 -> ay0 < ay1 -> az0 < az1 -> bx0 < bx1 -> by0 < by1 -> bz0 < bz1 ->
  union_extent ax0 ax1 bx0 bx1 ex0 ex1 -> union_extent ay0 ay1 by0 by1 ey0 ey1 -> union_extent az0 az1 bz0 bz1 ez0 ez1 ->
  csg_box asort UNION a b = fin_box ex0 ex1 ey0 ey1 ez0 ez1.
Proof. exact union_box. Qed.
Print Assumptions C102_the_box_of_a_union.

Example C102_box_case : forall asort, argsort_ok asort ->
  csg_box asort UNION (fin_box 0 1 0 1 0 1) (fin_box 2 3 (-1) (1/2) (-4) (-2)) = fin_box 0 1 (-1) 1 (-4) (-2).
Proof. exact union_box_case. Qed.

(** A union of two parts shows all of both parts to a ray that passes through its box, and
    nothing of either to any other ray. *)
Theorem C102_a_union_shows_both_parts_or_nothing :
  forall asort, argsort_ok asort ->
  forall nid b l rt r, tree_ok (Node nid UNION b l rt) -> boxes_current (Node nid UNION b l rt) -> boxes_fit l -> boxes_fit rt ->
  world_ray r -> good_ray (Node nid UNION b l rt) r ->
  (crosses b r -> exists L, forall t, ~ In t L ->
     (inside_at xsle (Fin t) (fst (shape_intersect asort (Node nid UNION b l rt) r)) = true <->
      inside l (ray_at r t) \/ inside rt (ray_at r t))) /\
  (~ crosses b r -> forall h, In h (fst (shape_intersect asort (Node nid UNION b l rt) r)) -> h = PInf).
Proof. exact two_parts. Qed.
Print Assumptions C102_a_union_shows_both_parts_or_nothing.

Example C102_both_or_nothing_case : forall asort, argsort_ok asort ->
  tree_ok (two_cubes asort) /\ boxes_current (two_cubes asort) /\
  (world_ray along /\ good_ray (two_cubes asort) along /\ crosses (shape_box (two_cubes asort)) along) /\
  (world_ray side_ray /\ good_ray (two_cubes asort) side_ray /\ ~ crosses (shape_box (two_cubes asort)) side_ray).
Proof. exact both_or_nothing_case. Qed.

(** Boxes that are too small or left behind only hide material: unless a CSG object is
    subtracted, what is reported as inside is inside. *)
Theorem C102_nothing_is_invented :
  forall asort asort' cs h l s, argsort_ok asort -> argsort_ok asort' -> Forall ok_call cs ->
  run_prog asort cs empty_heap = Ok h -> shape_of h l = Some s -> simple_cuts s ->
  forall r, world_ray r -> good_ray s r -> exists L, forall t, ~ In t L ->
  inside_at xsle (Fin t) (fst (shape_intersect asort' s r)) = true -> inside s (ray_at r t).
Proof. exact never_invents. Qed.
Print Assumptions C102_nothing_is_invented.

(** The condition is needed.  difference(block, union(cuboid, cuboid)) has two holes, but for a
    ray through the second hole alone the block is solid there: C04 fails for subtracted
    unions too. *)
Theorem C102_a_hole_can_be_lost :
  forall asort asort', argsort_ok asort -> argsort_ok asort' ->
  tree_ok (drilled asort) /\ boxes_current (drilled asort) /\ world_ray side_ray /\ good_ray (drilled asort) side_ray /\
  exists t, 5 < t < 6 /\ placed cube_b (ray_at side_ray t) /\ ~ inside (drilled asort) (ray_at side_ray t) /\
    inside_at xsle (Fin t) (fst (shape_intersect asort' (drilled asort) side_ray)) = true.
Proof. exact drilled_refuted. Qed.
Print Assumptions C102_a_hole_can_be_lost.
