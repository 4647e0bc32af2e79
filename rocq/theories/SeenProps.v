(** * SeenProps: unions of separate parts, and what culling can do to a solid *)
From Coq Require Import Reals List Bool ZArith Lra Lia.
Import ListNotations.
From Verif Require Import XR XRFacts Arr Csg SpecCsg CsgFacts CsgProps Lin LinFacts Prim Surf SpecGeom SpecTree SpecSeen PrimFacts PrimFacts2
  SpanFacts BoxFacts TreeFacts UnionFacts TreeExamples TreeProps SeenFacts SeenWorld World SpecWorld WorldFacts WorldFacts4 WorldFacts5 WorldExamples.
Open Scope R_scope.

Lemma union_box : forall asort, argsort_ok asort -> forall a b ex0 ex1 ey0 ey1 ez0 ez1 ax0 ax1 ay0 ay1 az0 az1 bx0 bx1 by0 by1 bz0 bz1,
  a = fin_box ax0 ax1 ay0 ay1 az0 az1 -> b = fin_box bx0 bx1 by0 by1 bz0 bz1 ->
  ax0 < ax1 -> ay0 < ay1 -> az0 < az1 -> bx0 < bx1 -> by0 < by1 -> bz0 < bz1 ->
  union_extent ax0 ax1 bx0 bx1 ex0 ex1 -> union_extent ay0 ay1 by0 by1 ey0 ey1 -> union_extent az0 az1 bz0 bz1 ez0 ez1 ->
  csg_box asort UNION a b = fin_box ex0 ex1 ey0 ey1 ez0 ez1.
Proof.
  intros asort AS a b ex0 ex1 ey0 ey1 ez0 ez1 ax0 ax1 ay0 ay1 az0 az1 bx0 bx1 by0 by1 bz0 bz1 -> -> Ax Ay Az Bx By Bz Ux Uy Uz.
  unfold fin_box. cbn [csg_box spanx spany spanz].
  rewrite (union_extent_span asort AS _ _ _ _ ex0 ex1), (union_extent_span asort AS _ _ _ _ ey0 ey1),
    (union_extent_span asort AS _ _ _ _ ez0 ez1) by auto. reflexivity.
Qed.

Lemma current_valid : forall s, boxes_current s -> boxes_valid s.
Proof.
  assert (Q : forall s, boxes_current s -> boxes_valid s /\ vbox (shape_box s)).
  { induction s as [f b|nid op b l IHl r0 IHr]; cbn [boxes_current boxes_valid shape_box].
    - intros ->. split; apply surf_box_vbox.
    - intros (Cl & Cr & as' & AS' & ->). destruct (IHl Cl) as [Vl Bl], (IHr Cr) as [Vr Br].
      assert (vbox (csg_box as' op (shape_box l) (shape_box r0))) by (apply csg_box_vbox; auto). auto. }
  intros s C. apply Q; auto.
Qed.

(** a union of two parts shows all of both, or nothing *)
Lemma two_parts : forall asort, argsort_ok asort ->
  forall nid b l rt r, tree_ok (Node nid UNION b l rt) -> boxes_current (Node nid UNION b l rt) -> boxes_fit l -> boxes_fit rt ->
  world_ray r -> good_ray (Node nid UNION b l rt) r ->
  (crosses b r -> exists L, forall t, ~ In t L ->
     (inside_at xsle (Fin t) (fst (shape_intersect asort (Node nid UNION b l rt) r)) = true <->
      inside l (ray_at r t) \/ inside rt (ray_at r t))) /\
  (~ crosses b r -> forall h, In h (fst (shape_intersect asort (Node nid UNION b l rt) r)) -> h = PInf).
Proof.
  intros asort AS nid b l rt r T C Fl Fr W G. pose proof (current_valid _ C) as V. split.
  - intro K. destruct (shape_shown asort AS _ r T V W G) as [L H].
    destruct T as [Tl Tr], C as (Cl & Cr & _), G as (_ & Gl & Gr).
    destruct (shown_inside l r Tl Cl Fl W Gl) as [Ll Hl], (shown_inside rt r Tr Cr Fr W Gr) as [Lr Hr].
    exists (L ++ Ll ++ Lr). intros t N. rewrite !in_app_iff in N. rewrite H by tauto. cbn [shown].
    rewrite Hl, Hr by tauto. tauto.
  - apply shape_culled; [apply V|apply W|apply G].
Qed.

(** ** Culling hides; it invents nothing unless a CSG object is subtracted *)
Lemma shown_sound : forall s r q, simple_cuts s -> shown s r q -> inside s q.
Proof.
  induction s as [f b|nid op b l IHl r0 IHr]; intros r q C H; [exact H|]. cbn [simple_cuts shown inside] in *.
  destruct C as [Cl Cr], H as [_ H]. destruct op.
  - destruct H; [left|right]; eauto.
  - destruct H; split; eauto.
  - destruct H as [H N]. split; [eauto|]. destruct r0; [exact N|destruct Cr].
Qed.
Lemma never_invents : forall asort asort' cs h l s, argsort_ok asort -> argsort_ok asort' -> Forall ok_call cs ->
  run_prog asort cs empty_heap = Ok h -> shape_of h l = Some s -> simple_cuts s ->
  forall r, world_ray r -> good_ray s r -> exists L, forall t, ~ In t L ->
  inside_at xsle (Fin t) (fst (shape_intersect asort' s r)) = true -> inside s (ray_at r t).
Proof.
  intros asort asort' cs h l s AS AS' F H E C r W G. destruct (built_shown asort AS cs h l s F H E asort' r AS' W G) as [L K].
  exists L. intros t N I. apply (shown_sound s r); auto. apply K; auto.
Qed.

(** ** Two cuboids beside each other *)
Definition along : ray := Ray (point (-5) (1/2) (1/2)) (vector 1 0 0).
Lemma along_world : world_ray along.
Proof. unfold world_ray, moving, along, point, vector; cbn [origin direction vx vy vz vw]. repeat split; try lra. Qed.
Lemma unit_clear : clear 1.
Proof. right. unfold atol. rewrite Rabs_right; lra. Qed.
Lemma along_clear : clear_dir along.
Proof. unfold clear_dir, along, point, vector; cbn [origin direction vx vy vz vw]. repeat split; auto using unit_clear; left; auto. Qed.
Lemma mid_ray : forall r, ray_map mid r = r.
Proof. intros [o d]. unfold ray_map. cbn [origin direction]. rewrite !mapply_mid. auto. Qed.

Lemma two_cubes_ok : forall asort, tree_ok (two_cubes asort).
Proof. intro asort. split; apply at_origin_ok; exact I. Qed.
Lemma two_cubes_current : forall asort, argsort_ok asort -> boxes_current (two_cubes asort).
Proof. intros asort AS. cbn. eauto. Qed.
Lemma two_cubes_good : forall asort r, clear_dir r -> good_ray (two_cubes asort) r.
Proof.
  intros asort r C. cbn [two_cubes good_ray leaf_of]. split; auto.
  split; (split; [|exact I]); cbn [cube_a cube_b at_origin s_prim s_obj]; rewrite mid_ray; exact C.
Qed.
Lemma in_cube_b : forall q, 2 <= vx q <= 3 -> 0 <= vy q <= 1 -> 0 <= vz q <= 1 -> vw q = 1 -> placed cube_b q.
Proof.
  intros q X Y Z W. exists q. cbn [cube_b at_origin s_prim s_world]. rewrite mapply_mid. split; auto.
  cbn [solid]. unfold between. rewrite !Rmin_left, !Rmax_right by lra. auto.
Qed.
Lemma in_cube_a : forall q, 0 <= vx q <= 1 -> 0 <= vy q <= 1 -> 0 <= vz q <= 1 -> vw q = 1 -> placed cube_a q.
Proof.
  intros q X Y Z W. exists q. cbn [cube_a at_origin s_prim s_world]. rewrite mapply_mid. split; auto.
  cbn [solid]. unfold between. rewrite !Rmin_left, !Rmax_right by lra. auto.
Qed.
Lemma two_cubes_crossed : forall asort, argsort_ok asort -> crosses (shape_box (two_cubes asort)) along.
Proof.
  intros asort AS. rewrite two_cubes_box by auto. exists 5, 6. split; [lra|].
  unfold in_box, in_span, along, ray_at, point, vector; cbn [spanx spany spanz fst snd xleb origin direction vx vy vz]. rewrite !rleb_true. lra.
Qed.
Lemma two_cubes_not_crossed : forall asort, argsort_ok asort -> ~ crosses (shape_box (two_cubes asort)) side_ray.
Proof.
  intros asort AS. rewrite two_cubes_box by auto. intros (t & t' & _ & H & _).
  unfold in_box, in_span, side_ray, ray_at, point, vector in H; cbn [spanx spany spanz fst snd xleb origin direction vx vy vz] in H.
  rewrite !rleb_true in H. lra.
Qed.

(** block minus union(cube, cube): the ray along the second hole *)
Definition big_block : surf := at_origin 3 (PCube (-1, -1, -1) (4, 2, 2)).
Definition drilled (asort : list xr -> list nat) : shape :=
  Node 4 DIFFERENCE (surf_box (s_prim big_block) (s_world big_block)) (leaf_of big_block) (two_cubes asort).
Lemma drilled_refuted : forall asort asort', argsort_ok asort -> argsort_ok asort' ->
  tree_ok (drilled asort) /\ boxes_current (drilled asort) /\ world_ray side_ray /\ good_ray (drilled asort) side_ray /\
  exists t, 5 < t < 6 /\ placed cube_b (ray_at side_ray t) /\ ~ inside (drilled asort) (ray_at side_ray t) /\
    inside_at xsle (Fin t) (fst (shape_intersect asort' (drilled asort) side_ray)) = true.
Proof.
  intros asort asort' AS AS'.
  assert (T : tree_ok (drilled asort)) by (split; [apply at_origin_ok; exact I|apply two_cubes_ok]).
  assert (C : boxes_current (drilled asort)).
  { split; [reflexivity|]. split; [apply two_cubes_current; auto|]. exists asort. auto. }
  assert (W := side_ray_world).
  assert (G : good_ray (drilled asort) side_ray).
  { split; [apply side_ray_clear|]. split; [|apply two_cubes_good; apply side_ray_clear].
    split; [|exact I]. cbn [big_block at_origin s_prim s_obj]. rewrite mid_ray. apply side_ray_clear. }
  split; auto. split; auto. split; auto. split; auto.
  destruct (shape_shown asort' AS' (drilled asort) side_ray T (current_valid _ C) W G) as [L H].
  destruct (avoid L 5 6 ltac:(lra)) as (t & Ht & N). exists t. split; auto.
  assert (B : placed cube_b (ray_at side_ray t)).
  { apply in_cube_b; unfold side_ray, ray_at, point, vector; cbn [origin direction vx vy vz vw]; lra. }
  split; auto. split.
  - intros [_ K]. apply K. right. exact B.
  - apply H; auto. split; [|split].
    + cbn [big_block at_origin s_prim s_world]. rewrite (surf_box_mid _ (-1) (-1) (-1) 4 2 2) by reflexivity.
      rewrite !Rmin_left, !Rmax_right by lra. exists 5, 6. split; [lra|].
      unfold in_box, in_span, side_ray, ray_at, point, vector; cbn [spanx spany spanz fst snd xleb origin direction vx vy vz]. rewrite !rleb_true. lra.
    + cbn [leaf_of shown]. exists (ray_at side_ray t). cbn [big_block at_origin s_prim s_world]. rewrite mapply_mid.
      unfold side_ray, ray_at, point, vector, solid, between; cbn [origin direction vx vy vz vw]. rewrite !Rmin_left, !Rmax_right by lra. repeat split; lra.
    + intros [K _]. exact (two_cubes_not_crossed asort AS K).
Qed.

(** ** The program that builds the two cuboids *)
Definition two_calls : list call :=
  [CSurface (PCube (0, 0, 0) (1, 1, 1)) Absorber; CSurface (PCube (2, 0, 0) (3, 1, 1)) Absorber; CCsg UNION 0%nat 1%nat].
Lemma two_built : forall asort, argsort_ok asort -> exists h s, run_prog asort two_calls empty_heap = Ok h /\ shape_of h 2%nat = Some s /\
  Forall ok_call two_calls /\ simple_cuts s /\
  world_ray along /\ good_ray s along /\ shown s along (point (5/2) (1/2) (1/2)) /\
  world_ray side_ray /\ good_ray s side_ray /\ ~ shown s side_ray (point (5/2) (1/2) (1/2)).
Proof.
  intros asort AS. do 2 eexists. split; [unfold two_calls; go; reflexivity|]. split; [reflexivity|].
  split; [repeat constructor|]. split; [cbn; auto|].
  assert (SB : forall p, bounding_box (bounding_points p) = surf_box p mid).
  { intro p. unfold surf_box. f_equal. rewrite <- (map_id (bounding_points p)) at 1. apply map_ext. intro v. symmetry. apply mapply_mid. }
  assert (BX : csg_box asort UNION (bounding_box (bounding_points (PCube (0, 0, 0) (1, 1, 1))))
    (bounding_box (bounding_points (PCube (2, 0, 0) (3, 1, 1)))) = shape_box (two_cubes asort)).
  { rewrite !SB. reflexivity. }
  split; [apply along_world|].
  split; [|split; [|split; [apply side_ray_world|split]]].
  - cbn [good_ray]. split; [apply along_clear|]. split; (split; [|exact I]); cbn [s_prim s_obj]; change (shift 0 0 0) with mid; rewrite mid_ray; exact along_clear.
  - cbn [shown]. split.
    + cbn [o_box]. rewrite BX. apply two_cubes_crossed; auto.
    + right. apply (in_cube_b (point (5/2) (1/2) (1/2))); unfold point; cbn [vx vy vz vw]; lra.
  - cbn [good_ray]. split; [apply side_ray_clear|]. split; (split; [|exact I]); cbn [s_prim s_obj]; change (shift 0 0 0) with mid; rewrite mid_ray; exact side_ray_clear.
  - cbn [shown o_box]. rewrite BX. intros [K _]. exact (two_cubes_not_crossed asort AS K).
Qed.
Lemma union_box_case : forall asort, argsort_ok asort ->
  csg_box asort UNION (fin_box 0 1 0 1 0 1) (fin_box 2 3 (-1) (1/2) (-4) (-2)) = fin_box 0 1 (-1) 1 (-4) (-2).
Proof.
  intros asort AS. eapply (union_box asort AS); try reflexivity; try lra; unfold union_extent.
  - right. left. lra.
  - left. rewrite Rmin_right, Rmax_left by lra. lra.
  - right. right. lra.
Qed.
Lemma both_or_nothing_case : forall asort, argsort_ok asort ->
  tree_ok (two_cubes asort) /\ boxes_current (two_cubes asort) /\
  (world_ray along /\ good_ray (two_cubes asort) along /\ crosses (shape_box (two_cubes asort)) along) /\
  (world_ray side_ray /\ good_ray (two_cubes asort) side_ray /\ ~ crosses (shape_box (two_cubes asort)) side_ray).
Proof.
  intros asort AS. split; [apply two_cubes_ok|]. split; [apply two_cubes_current; auto|]. split.
  - split; [apply along_world|]. split; [apply two_cubes_good, along_clear|apply two_cubes_crossed; auto].
  - split; [apply side_ray_world|]. split; [apply two_cubes_good, side_ray_clear|apply two_cubes_not_crossed; auto].
Qed.
