(** * C118: shapes are what their constructors were asked for *)
From Coq Require Import Reals List Bool Lra.
Import ListNotations.
From Verif Require Import XR XRFacts Lin LinFacts Csg Prim SpecGeom PrimFacts PrimFacts2 Surf World WorldFacts MotionFacts3 TraceFacts8 Shapes SpecShapes ShapesProps.
Open Scope R_scope.

(** Constructors raise only for paraboloids whose focus or height is not positive. *)
Theorem C118_what_is_refused : forall c, (exists p, shape_primitive c = Some p) <-> allowed c.
Proof. exact allowed_iff. Qed.
Print Assumptions C118_what_is_refused.

(** Rays see the solid that was asked for, with given or left out arguments, negative radii and corners in any order.
    Missing: cylinders whose heights are given in the wrong order and planes with negative sides (see below). *)
Theorem C118_shapes_are_as_asked_partial : forall c p r, shape_primitive c = Some p -> usual c -> moving r -> clear_ray p r ->
  match c with MkXYPlane _ _ => vz (direction r) <> 0 | _ => True end ->
  tells (sort2 (prim_hits p r))
        (fun t => asked c (vx (origin r) + t * vx (direction r)) (vy (origin r) + t * vy (direction r)) (vz (origin r) + t * vz (direction r))).
Proof. exact shapes_tell. Qed.
Print Assumptions C118_shapes_are_as_asked_partial.
(** Cuboid.from_length(-3) seen along x: the cube of side 3 *)
Definition along_x : ray := Ray (point (-5) 0 0) (vector 1 0 0).
Lemma along_x_moving : moving along_x. Proof. intros (A & _). cbn in A. lra. Qed.
Example C118_negative_cube : exists p, shape_primitive (MkFromLength (-3)) = Some p /\ usual (MkFromLength (-3)) /\ moving along_x /\ clear_ray p along_x /\
  asked (MkFromLength (-3)) (3 / 2) 0 0 /\ ~ asked (MkFromLength (-3)) 2 0 0.
Proof.
  eexists. split; [reflexivity|]. split; [exact I|]. split; [exact along_x_moving|]. split.
  - cbn. unfold clear, atol. rewrite (Rabs_right 1) by lra. repeat split; [right; lra|left; reflexivity|left; reflexivity].
  - cbn. unfold half_of. rewrite (Rabs_left (-3)), Rabs_R0, !Rabs_right by lra. lra.
Qed.

(** No ray, normal or bounding box depends on the sign of a radius, on the order of a cuboid's corners in any coordinate, or on
    the signs of its sides; from_length is from_sides with three equal sides. *)
Theorem C118_signs_and_orders_do_not_matter :
  (forall r, same_shape (PSphere (- r)) (PSphere r)) /\
  (forall r lo hi cap, same_shape (PCylinder (- r) lo hi cap) (PCylinder r lo hi cap)) /\
  (forall x0 y0 z0 x1 y1 z1 x0' y0' z0' x1' y1' z1',
     (x0', x1') = (x0, x1) \/ (x0', x1') = (x1, x0) -> (y0', y1') = (y0, y1) \/ (y0', y1') = (y1, y0) -> (z0', z1') = (z0, z1) \/ (z0', z1') = (z1, z0) ->
     same_shape (PCube (x0', y0', z0') (x1', y1', z1')) (PCube (x0, y0, z0) (x1, y1, z1))) /\
  (forall a b c a' b' c' p p', Rabs a' = Rabs a -> Rabs b' = Rabs b -> Rabs c' = Rabs c ->
     shape_primitive (MkFromSides (Some a) (Some b) (Some c)) = Some p -> shape_primitive (MkFromSides (Some a') (Some b') (Some c')) = Some p' -> same_shape p' p) /\
  (forall a, shape_primitive (MkFromLength a) = shape_primitive (MkFromSides (Some a) (Some a) (Some a))).
Proof.
  split; [exact sphere_sign|]. split; [exact cylinder_sign|]. split; [exact cube_order|]. split.
  - intros a b c a' b' c' p p' A B C E E'. cbn [shape_primitive prim_init default] in E, E'. injection E as <-. injection E' as <-.
    assert (K : forall s s', Rabs s' = Rabs s -> (- (1 / 2) * s', 1 / 2 * s') = (- (1 / 2) * s, 1 / 2 * s) \/ (- (1 / 2) * s', 1 / 2 * s') = (1 / 2 * s, - (1 / 2) * s)).
    { intros s s' H. assert (D : s' = s \/ s' = - s) by (unfold Rabs in H; destruct (Rcase_abs s), (Rcase_abs s'); lra).
      destruct D as [->| ->]; [left; reflexivity|right; f_equal; ring]. }
    apply cube_order; apply K; assumption.
  - intro a. cbn [shape_primitive prim_init default]. f_equal. f_equal; repeat apply (f_equal2 pair); ring.
Qed.
Print Assumptions C118_signs_and_orders_do_not_matter.

(** A cylinder whose heights are given in the wrong order is the same for rays that climb, but rays perpendicular to its axis
    never meet it, and the normals of its caps point inwards. *)
Theorem C118_heights_in_the_wrong_order_refuted :
  (forall r lo hi cap, lo < hi -> forall ra,
     prim_hits (PCylinder r hi lo cap) ra = if isclose (vz (direction ra)) 0 then (PInf, PInf) else prim_hits (PCylinder r lo hi cap) ra) /\
  (forall r lo hi q, isclose lo hi = false -> isclose hi lo = false -> vz q = lo \/ vz q = hi ->
     exists n, prim_normal (PCylinder r lo hi true) q = Some n /\ prim_normal (PCylinder r hi lo true) q = Some (vopp n) /\
               n = vector 0 0 (if Req_EM_T (vz q) hi then 1 else -1)) /\
  exists c p, shape_primitive c = Some p /\ moving along_x /\ prim_hits p along_x = (PInf, PInf) /\
    forall t, 4 <= t <= 6 -> asked c (-5 + t * 1) (0 + t * 0) (0 + t * 0).
Proof.
  split; [exact upside_down|]. split; [exact caps_turned|].
  exists (MkCylinder (Some 1) (Some 1) (Some (-1))), (PCylinder 1 1 (-1) true). split; [reflexivity|]. split; [exact along_x_moving|]. split.
  - rewrite (upside_down 1 (-1) 1 true) by lra. unfold along_x. cbn [direction vector vz].
    assert (I : isclose 0 0 = true) by (unfold isclose; apply rleb_true; rewrite Rminus_0_r, Rabs_R0; unfold atol, rtol; lra). rewrite I. reflexivity.
  - intros t T. cbn. unfold within. split; [nra|lra].
Qed.
Print Assumptions C118_heights_in_the_wrong_order_refuted.
Example C118_caps_apart : isclose (-1) 1 = false /\ isclose 1 (-1) = false.
Proof. split; unfold isclose; apply rleb_false; unfold atol, rtol; rewrite ?(Rabs_left (-1)), ?(Rabs_right 1) by lra; unfold Rabs; destruct Rcase_abs; lra. Qed.

(** A plane with a negative width is met by the rays that meet the plane of the positive width, except those that do not move
    along x, which never meet it. *)
Theorem C118_negative_sides_refuted :
  (forall w l ra, 0 < w -> prim_hits (PPlane (- w) l) ra = if isclose (vx (direction ra)) 0 then (PInf, PInf) else prim_hits (PPlane w l) ra) /\
  exists c p, shape_primitive c = Some p /\ asked c 0 0 0 /\ prim_hits p (Ray (point 0 0 (-1)) (vector 0 0 1)) = (PInf, PInf).
Proof.
  split; [exact plane_negative|]. exists (MkXYPlane (Some (-2)) (Some 2)), (PPlane (-2) 2). split; [reflexivity|]. split.
  - cbn. unfold half_of. rewrite Rabs_R0, (Rabs_left (-2)), Rabs_right by lra. lra.
  - replace (-2) with (- (2)) by ring. rewrite plane_negative by lra. cbn [direction vector vx].
    assert (I : isclose 0 0 = true) by (unfold isclose; apply rleb_true; rewrite Rminus_0_r, Rabs_R0; unfold atol, rtol; lra). rewrite I. reflexivity.
Qed.
Print Assumptions C118_negative_sides_refuted.

(** The readers give back what the constructor was given, after any further calls, also failing ones. *)
Theorem C118_readers : forall asort cs m h c p, shape_primitive c = Some p ->
  exists h1, run_call asort (CSurface p m) h = Ok h1 /\
  forall h2, run_catching asort cs h1 = Some h2 ->
  exists o q, get h2 (length (h_objs h)) = Some o /\ primitive o = Some q /\
    match c with
    | MkSphere r => get_radius q = Some r
    | MkCylinder r _ _ => get_radius q = Some (default r 1)
    | MkParaboloid f _ => get_focus q = Some (default f 1)
    | _ => get_radius q = None /\ get_focus q = None
    end.
Proof.
  intros asort cs m h c p E. destruct (made asort c p m h E) as (h1 & o & R & G & P). exists h1. split; [exact R|]. intros h2 H.
  destruct (primitive_stays asort cs h1 h2 _ o p G P H) as (o' & G' & P'). exists o', p. split; [exact G'|]. split; [exact P'|].
  destruct c; cbn [shape_primitive prim_init] in E; try (injection E as <-; cbn; auto).
  destruct (rleb _ _ || rleb _ _)%bool; [discriminate|]. injection E as <-. reflexivity.
Qed.
Print Assumptions C118_readers.
Example C118_scaled_sphere : exists p, shape_primitive (MkSphere 2) = Some p /\ get_radius p = Some 2.
Proof. eexists. split; reflexivity. Qed.
