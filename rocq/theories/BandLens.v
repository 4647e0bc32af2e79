(** * BandLens: round lenses and rays that are almost parallel to their axis *)
From Coq Require Import Reals Lra Lia List Bool ZArith Psatz.
Import ListNotations.
From Verif Require Import XR XRFacts Arr Lin LinFacts Prim Csg SpecCsg CsgFacts CsgProps Surf SpecGeom SpecTree PrimFacts PrimFacts2 TreeFacts World SpecWorld
  WorldFacts3 WorldFacts5 WorldProps Components SpecComponents BuildFacts ComponentFacts ComponentFacts2 ComponentOptics LensAxis SpecBand BandFacts ArrFacts.
Open Scope R_scope.

Section Blind.
  Variable asort : list xr -> list nat.
  Hypothesis AS : argsort_ok asort.
  Variable r : ray.

  Definition blind (s : shape) : Prop := forall t, inside_at xsle (Fin t) (fst (shape_intersect asort s r)) = false.

  Lemma node_blind : forall i op b l rc, (op = INTERSECT /\ (blind l \/ blind rc)) \/ (op = DIFFERENCE /\ blind l) -> blind (Node i op b l rc).
  Proof.
    intros i op b l rc H t. cbn [shape_intersect]. destruct (box_hit b r).
    - destruct (shape_columns asort AS l r) as (S1 & L1 & _), (shape_columns asort AS rc r) as (S2 & L2 & _).
      unfold blind in H. destruct (shape_intersect asort l r) as [lh ls], (shape_intersect asort rc r) as [rh rs]. cbn [fst snd] in *.
      rewrite (csg_combine_inside xsle PInf asort xsle_trans AS); auto; try (rewrite ?L1, ?L2; apply shape_rows_even).
      destruct H as [[-> [H|H]]|[-> H]]; specialize (H t); cbn [bool_op]; rewrite H; auto using andb_false_r.
    - cbn [fst]. unfold inside_at. rewrite below_none; auto. apply Forall_forall. intros x Hx. apply repeat_spec in Hx. subst; auto.
  Qed.

  Lemma tube_blind : forall f b m rad lo hi c k, lo <= hi -> turned_surf f (PCylinder rad lo hi true) m 0 0 c k ->
    vw (origin r) = 1 -> vw (direction r) = 0 -> almost_along_x r -> blind (Leaf f b).
  Proof.
    intros f b m rad lo hi c k LH (P & _ & O & _) W1 W2 [A B] t. cbn [shape_intersect fst]. unfold surf_hits. rewrite P, O.
    destruct r as [[ox oy oz ow] [dx dy dz dw]]. cbn [origin direction vx vy vz vw] in *. subst ow dw.
    assert (E : ray_map (tobj 0 0 c) (Ray (V4 ox oy oz 1) (V4 dx dy dz 0)) = Ray (pt (oy - 0) (oz - 0) (ox - c)) (V4 dy dz dx 0)).
    { unfold ray_map; cbn [origin direction]. f_equal; [apply (tobj_pt 0 0 c ox oy oz)|apply tobj_vec]. }
    rewrite E, !Rminus_0_r.
    destruct (cylinder_glance rad lo hi true (Ray (pt oy oz (ox - c)) (V4 dy dz dx 0)) LH) as (u & _ & [[H _]|[H _]]);
      [unfold across; cbn [direction vx vy]; lra | unfold approach, pt; cbn [origin direction vx vy]; exact B | |]; rewrite H.
    - rewrite sort2_fin, Rmin_left, Rmax_left by lra. unfold inside_at, below. cbn [filter]. destruct (before xsle (Fin u) (Fin t)); reflexivity.
    - reflexivity.
  Qed.
End Blind.

Lemma side_blind : forall asort r, argsort_ok asort -> forall convex rr centre m T,
  (forall s, tree_ok s -> boxes_current s -> erase s = T -> blind asort r s) ->
  forall s, tree_ok s -> boxes_current s -> erase s = turned_side convex rr centre m T -> blind asort r s.
Proof.
  intros asort r AS convex rr centre m T H s TO BC E. destruct rr as [q| | |]; [|cbn [turned_side] in E; auto..].
  destruct (side_cases _ _ _ _ _ _ E TO BC) as (i & b & s1 & f & bx & as' & -> & E1 & _ & TO1 & BC1 & _).
  apply node_blind; auto. destruct (convex q); auto.
Qed.

Section Lenses.
  Variable asort : list xr -> list nat.
  Hypothesis AS : argsort_ok asort.

  Definition overlooked (s : shape) : Prop := forall r, vw (origin r) = 1 -> vw (direction r) = 0 -> almost_along_x r ->
    forall t, inside_at xsle (Fin t) (fst (shape_intersect asort s r)) = false.

  Lemma thick_overlooked : forall r1 r2 t d m, 0 < d -> 0 <= t -> radius_ok r1 (d / 2) -> radius_ok r2 (d / 2) ->
    built asort (thick_lens r1 r2 t (Round d) m) overlooked.
  Proof.
    intros r1 r2 t d m D T R1 R2.
    pose proof (front_depth_pos r1 (d / 2) ltac:(lra) R1) as F1. pose proof (back_depth_pos r2 (d / 2) ltac:(lra) R2) as F2.
    destruct (thick_lens_erased asort r1 r2 t (Round d) m AS D T R1 R2) as (p & EP & B).
    eapply built_more; [|exact B]. cbv beta. intros s _ _ (TO & BC & E) r W1 W2 A.
    change (reach (Round d)) with (d / 2) in *. cbn [create_aperture] in EP. injection EP as <-. unfold lens_erased, placed_erased in E.
    revert s TO BC E. apply (side_blind asort r AS). apply (side_blind asort r AS). intros s TO BC E.
    destruct (erase_leaf _ _ _ _ _ _ _ E TO) as (f & bx & -> & TS & OK).
    refine (tube_blind asort r f _ m _ _ _ _ _ _ TS W1 W2 A); lra.
  Qed.

  Lemma leaf_turned : forall s p m, erase s = mv rx90 (mv ry90 (TLeaf p m mid 1)) -> tree_ok s -> exists f b, s = Leaf f b /\ turned_surf f p m 0 0 0 1.
  Proof.
    intros s p m E TO. cbn [mv] in E.
    assert (M : mmul rx90 (mmul ry90 mid) = tw 0 0 0) by (rewrite <- (turned_leaf 0); f_equal; f_equal; unfold mmove, mid, mmul, mapply, mtrans, vdot; cbn [vx vy vz vw row0 row1 row2 row3]; repeat f_equal; ring).
    rewrite M in E. destruct (erase_leaf _ _ _ _ _ _ _ E TO) as (f & bx & -> & TS & OK). eauto.
  Qed.

  Lemma biconvex_overlooked : forall r1 r2 t d m, 0 < d -> 0 <= t -> r1 <> 0 -> r2 <> 0 ->
    built asort (biconvex_lens (Fin r1) (Fin r2) t (Round d) m) overlooked.
  Proof.
    intros r1 r2 t d m D T N1 N2. unfold biconvex_lens. cbn [create_aperture].
    set (p := PCylinder _ _ _ _).
    set (T2 := TLeaf (PSphere r2) m (mmul (mmove 0 0 (r1 - t / 2)) mid) 1).
    set (T1 := TLeaf (PSphere r1) m (mmul (mmove 0 0 (- (r1 - t / 2))) mid) 1).
    eapply (built_more asort _ (fun s => erase s = mv rx90 (mv ry90 (TNode INTERSECT (TNode INTERSECT T2 T1) (TLeaf p m mid 1))))).
    - intros s TO BC E r W1 W2 A. destruct s as [f b|i op b l rr]; [discriminate|]. cbn [erase mv] in E. injection E as -> E1 E2.
      apply node_blind; auto. left. split; auto. right. destruct TO as [_ TO].
      destruct (leaf_turned rr p m E2 TO) as (f & b' & -> & TS). refine (tube_blind asort r f _ m _ _ _ _ _ _ TS W1 W2 A); lra.
    - eapply (built_turned asort _ _ _ (TNode INTERSECT (TNode INTERSECT T2 T1) (TLeaf p m mid 1))); [exact AS|cbn [track track_call]; unfold p; rewrite (aperture_init (Round d) t _ eq_refl); trk|reflexivity|reflexivity| |].
      + simpl. repeat split; auto; try (apply affine_mmul; reflexivity); lra.
      + auto.
  Qed.

  Lemma plano_overlooked : forall r t d m, 0 < d -> 0 <= t -> r <> 0 -> built asort (plano_convex_lens (Fin r) t (Round d) m) overlooked.
  Proof.
    intros r0 t d m D T N1. unfold plano_convex_lens. cbn [create_aperture].
    set (p := PCylinder _ _ _ _).
    set (T1 := TLeaf (PSphere r0) m (mmul (mmove 0 0 (- (r0 - t / 2))) mid) 1).
    eapply (built_more asort _ (fun s => erase s = mv rx90 (mv ry90 (TNode INTERSECT T1 (TLeaf p m mid 1))))).
    - intros s TO BC E r W1 W2 A. destruct s as [f b|i op b l rr]; [discriminate|]. cbn [erase mv] in E. injection E as -> E1 E2.
      apply node_blind; auto. left. split; auto. right. destruct TO as [_ TO].
      destruct (leaf_turned rr p m E2 TO) as (f & b' & -> & TS). refine (tube_blind asort r f _ m _ _ _ _ _ _ TS W1 W2 A); lra.
    - eapply (built_turned asort _ _ _ (TNode INTERSECT T1 (TLeaf p m mid 1))); [exact AS|cbn [track track_call]; unfold p; rewrite (aperture_init (Round d) t _ eq_refl); trk|reflexivity|reflexivity| |].
      + simpl. repeat split; auto; try (apply affine_mmul; reflexivity); lra.
      + auto.
  Qed.
End Lenses.
