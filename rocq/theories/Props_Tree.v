(** * Properties C03..C06, C12: CSG objects *)
From Coq Require Import Reals List Bool ZArith Lra.
Import ListNotations.
From Verif Require Import XR XRFacts Arr Csg SpecCsg CsgProps Lin LinFacts Ops Prim Surf SpecGeom SpecTree
  SpanFacts TreeFacts UnionFacts SurfFacts TreeExamples TreeProps.
Open Scope R_scope.

(** C03.  The rows are sorted; every row below +inf is a row of one of the two
    children; a ray that misses the stored box gets inf and -1 everywhere. *)
Theorem C03_csg_rows_come_from_the_children :
  forall asort, argsort_ok asort ->
  forall nid op b l r ray,
  let out := shape_intersect asort (Node nid op b l r) ray in
  let left_rows := shape_intersect asort l ray in
  let right_rows := shape_intersect asort r ray in
  ascending xsle (fst out) /\
  length (fst out) = length (snd out) /\
  length (fst out) = (length (fst left_rows) + length (fst right_rows))%nat /\
  (forall h i, In (h, i) (combine (fst out) (snd out)) -> h <> PInf ->
     In (h, i) (combine (fst left_rows) (snd left_rows)) \/
     In (h, i) (combine (fst right_rows) (snd right_rows))) /\
  (box_hit b ray = false ->
     (forall h, In h (fst out) -> h = PInf) /\ (forall i, In i (snd out) -> i = (-1)%Z)).
Proof. exact csg_rows. Qed.
Print Assumptions C03_csg_rows_come_from_the_children.

(** C03: hence every finite hit carries the id of a leaf that is hit there *)
Theorem C03_every_hit_names_the_surface_hit :
  forall asort, argsort_ok asort ->
  forall s ray h i,
  In (h, i) (combine (fst (shape_intersect asort s ray)) (snd (shape_intersect asort s ray))) ->
  h = PInf \/ exists f, In f (surface_ids s) /\ i = s_id f /\ In h (surf_hits f ray).
Proof. exact shape_leaf. Qed.
Print Assumptions C03_every_hit_names_the_surface_hit.

Example C03_hypotheses : argsort_ok (argsort_stable xsle PInf).
Proof. exact argsort_ok_stable. Qed.

(** C04 for trees whose boxes are current and whose parts lie so that the code's
    boxes are right ([boxes_fit]: parts of a union overlap along every axis, parts of
    an intersection do not merely touch).  Missing: the other relative positions, for
    which [C05_disjoint_union_refuted] and [C06_touching_boxes_refuted] show the
    claim to be false. *)
Theorem C04_csg_hits_delimit_the_solid_partial :
  forall asort, argsort_ok asort ->
  forall s r,
  tree_ok s -> boxes_current s -> boxes_fit s -> world_ray r -> good_ray s r ->
  exists L, forall t, ~ In t L ->
    (inside_at xsle (Fin t) (fst (shape_intersect asort s r)) = true <-> inside s (ray_at r t)).
Proof. exact shape_inside. Qed.
Print Assumptions C04_csg_hits_delimit_the_solid_partial.

(** difference(union(ball, block), rod) and a ray through it meet the hypotheses *)
Example C04_hypotheses : forall asort, argsort_ok asort ->
  tree_ok (part asort) /\ boxes_current (part asort) /\ boxes_fit (part asort) /\
  world_ray long_ray /\ good_ray (part asort) long_ray.
Proof.
  intros asort AS. split; [apply part_tree_ok|]. split; [apply part_boxes_current; auto|].
  split; [apply part_fits|]. split; [apply long_ray_world|apply long_ray_good].
Qed.

(** C05 holds when the boxes of the parts overlap along every axis ([boxes_fit]):
    a proper crossing (odd multiplicity) of one part at a point not in the other is
    reported.  Missing: parts that are apart or touch along an axis, see below. *)
Theorem C05_union_reports_every_part_partial :
  forall asort, argsort_ok asort ->
  forall nid b l r ray h,
  tree_ok (Node nid UNION b l r) -> boxes_current (Node nid UNION b l r) ->
  boxes_fit (Node nid UNION b l r) -> world_ray ray -> good_ray (Node nid UNION b l r) ray ->
  let lh := fst (shape_intersect asort l ray) in
  let rh := fst (shape_intersect asort r ray) in
  (Nat.odd (count_occ xr_eq_dec lh (Fin h)) = true /\ ~ In (Fin h) rh /\ inside_at xsle (Fin h) rh = false) \/
  (Nat.odd (count_occ xr_eq_dec rh (Fin h)) = true /\ ~ In (Fin h) lh /\ inside_at xsle (Fin h) lh = false) ->
  In (Fin h) (fst (shape_intersect asort (Node nid UNION b l r) ray)).
Proof. exact union_reports_part. Qed.
Print Assumptions C05_union_reports_every_part_partial.

(** the far face of the block, seen through union(ball, block) *)
Example C05_hypotheses : forall asort, argsort_ok asort ->
  tree_ok (blob asort) /\ boxes_current (blob asort) /\ boxes_fit (blob asort) /\
  world_ray long_ray /\ good_ray (blob asort) long_ray /\
  let lh := fst (shape_intersect asort (leaf_of ball) long_ray) in
  let rh := fst (shape_intersect asort (leaf_of block) long_ray) in
  Nat.odd (count_occ xr_eq_dec rh (Fin 7)) = true /\ ~ In (Fin 7) lh /\ inside_at xsle (Fin 7) lh = false.
Proof. exact blob_case. Qed.

(** C05 fails for union(Cube[0,1]^3, Cube[2,3]x[0,1]^2): the ray hits the second
    cuboid at 5 and 6, the union reports nothing, whatever np.argsort does. *)
Theorem C05_disjoint_union_refuted :
  forall asort asort', argsort_ok asort ->
  tree_ok (two_cubes asort) /\ boxes_current (two_cubes asort) /\ world_ray side_ray /\
  fst (shape_intersect asort' (leaf_of cube_b) side_ray) = [Fin 5; Fin 6] /\
  inside (two_cubes asort) (ray_at side_ray (11/2)) /\
  fst (shape_intersect asort' (two_cubes asort) side_ray) = [PInf; PInf; PInf; PInf].
Proof. exact two_cubes_refuted. Qed.
Print Assumptions C05_disjoint_union_refuted.

(** C06 for any two regions [A], [B] that the children's boxes contain.
    [fits_across]: along an axis in which the ray does not move, the boxes of an
    intersection overlap or are apart (they do not merely touch).  Missing: a ray that
    runs inside a face shared by two boxes that merely touch, see the refutation. *)
Theorem C06_box_culling_drops_nothing_partial :
  forall asort, argsort_ok asort ->
  forall op a b (A B : v4 -> Prop) r,
  op <> UNION -> vbox a -> vbox b -> fits_across op a b r ->
  (forall q, A q -> in_box a q) -> (forall q, B q -> in_box b q) ->
  moving r -> clear_dir r ->
  box_hit (csg_box asort op a b) r = false ->
  let region q := match op with INTERSECT => A q /\ B q | _ => A q /\ ~ B q end in
  forall t t', region (ray_at r t) -> region (ray_at r t') -> t = t'.
Proof. exact culling_sound. Qed.
Print Assumptions C06_box_culling_drops_nothing_partial.

(** the boxes [0,2]^3 and [1,3]^3 and a ray through the first that misses the second *)
Example C06_hypotheses : forall asort, argsort_ok asort ->
  vbox big_a /\ vbox big_b /\ fits_across INTERSECT big_a big_b low_ray /\
  moving low_ray /\ clear_dir low_ray /\ box_hit (csg_box asort INTERSECT big_a big_b) low_ray = false /\
  in_box big_a (ray_at low_ray 6).
Proof. exact big_case. Qed.

(** C06 fails when two parts share a face: with a stable argsort (numpy's for short
    arrays) intersect([0,1]^3, [1,2]x[0,1]^2) contains the ray for 5 <= t <= 6, and
    the node reports nothing. *)
Theorem C06_touching_boxes_refuted :
  forall asort', let asort := argsort_stable xsle PInf in
  argsort_ok asort /\ tree_ok (face asort) /\ boxes_current (face asort) /\ world_ray face_ray /\
  (forall t, 5 <= t <= 6 -> inside (face asort) (ray_at face_ray t)) /\
  fst (shape_intersect asort' (face asort) face_ray) = [PInf; PInf; PInf; PInf].
Proof. exact face_missed. Qed.
Print Assumptions C06_touching_boxes_refuted.

(** C06: the children's boxes do contain the children *)
Theorem C06_stored_boxes_contain_the_solid :
  forall s, tree_ok s -> boxes_current s -> boxes_fit s ->
  forall q, inside s q -> in_box (shape_box s) q.
Proof. exact stored_box_contains. Qed.
Print Assumptions C06_stored_boxes_contain_the_solid.

(** C12, for every tree but a bare paraboloid: no finite hit at all *)
Theorem C12_dead_rays_hit_nothing_partial :
  forall asort s r h,
  direction r = V4 0 0 0 0 ->
  match s with Leaf f _ => match s_prim f with PParaboloid _ _ => False | _ => True end | _ => True end ->
  In h (fst (shape_intersect asort s r)) -> xfinite h = false.
Proof. exact shape_still. Qed.
Print Assumptions C12_dead_rays_hit_nothing_partial.

Example C12_hypotheses : forall asort,
  length (fst (shape_intersect asort (leaf_of ball) dead_ray)) = 2%nat /\ direction dead_ray = V4 0 0 0 0 /\
  placed ball (origin dead_ray).
Proof. exact dead_case. Qed.

(** C12 fails for a bare Paraboloid(1, 4): a ray with zero direction at (0,0,1) gets a
    hit at distance 4. *)
Theorem C12_dead_ray_in_paraboloid_refuted :
  exists s r, surf_ok s /\ vw (origin r) = 1 /\ direction r = V4 0 0 0 0 /\
    surf_hits s r = [Fin 4; PInf].
Proof. exact bowl_refuted. Qed.
Print Assumptions C12_dead_ray_in_paraboloid_refuted.
