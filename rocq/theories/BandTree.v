(** * BandTree: what the hits of an object say about every ray *)
From Coq Require Import Reals Lra Lia List Bool ZArith Psatz.
Import ListNotations.
From Coq Require Classical_Prop.
From Verif Require Import XR XRFacts Arr ArrFacts Lin LinFacts Prim Csg SpecCsg CsgFacts CsgProps Surf SpecGeom SpecTree SpecSeen PrimFacts PrimFacts2 TreeFacts
  World SpecWorld WorldFacts WorldFacts4 SeenFacts SeenWorld SpecBand BandFacts BandProps.
Open Scope R_scope.

Lemma answers_more : forall h P Q, (forall t, P t <-> Q t) -> answers h P -> answers h Q.
Proof.
  intros h P Q E [(t0 & t1 & H & L & K)|[H K]]; [left|right; split; auto].
  - exists t0, t1. split; auto. split; auto. intro t. rewrite <- E. apply K.
  - intros t q. apply (K t), E, q.
Qed.

Lemma prim_told : forall p r, prim_ok p -> moving r -> steady p r ->
  exists L, forall t, ~ In t L ->
    (inside_at xsle (Fin t) [fst (sort2 (prim_hits p r)); snd (sort2 (prim_hits p r))] = true <-> told p r t).
Proof.
  intros p r OK M X. destruct p as [rad|rad lo hi cap|c0 c1|f h|w l].
  - destruct (sphere_hits_exact rad r M) as [A _]. cbn [prim_hits told].
    destruct (sphere_hits rad r) as [a b]. cbn [fst snd] in A. rewrite sort2_rev.
    apply (answers_inside (b, a)). auto.
  - destruct OK as [_ LH]. cbn [told]. destruct (Rlt_le_dec (/ 100000000) (across r)) as [A|A].
    + apply answers_inside. left. eapply answers_more; [|apply cylinder_steep; auto]. cbv beta. intro t. split; [auto|]. intros [[_ H]|[H _]]; [auto|lra].
    + destruct (Rlt_le_dec (/ 100000000) (Rabs (approach r))) as [B|B].
      * destruct (cylinder_glance rad lo hi cap r LH A B) as (u & _ & [[H _]|[H _]]); rewrite H.
        -- exists []. intros t _. rewrite sort2_fin, Rmin_left, Rmax_left by lra. cbn [fst snd]. unfold inside_at, below. cbn [filter].
           destruct (before xsle (Fin u) (Fin t)); cbn; (split; [discriminate|intros [[? _]|(_ & ? & _)]; lra]).
        -- exists []. intros t _. split; [discriminate|intros [[? _]|(_ & ? & _)]; lra].
      * apply answers_inside. left. cbn [steady] in X. eapply answers_more; [|apply cylinder_along; auto; lra]. cbv beta. intro t.
        split; [auto|]. intros [[H _]|(_ & _ & H)]; [lra|auto].
  - destruct c0 as [[x0 y0] z0], c1 as [[x1 y1] z1]. apply answers_inside. right.
    exact (cube_every x0 x1 y0 y1 z0 z1 r X).
  - destruct OK as [Hf Hh]. cbn [told steady] in *. apply answers_inside. left. destruct (Rlt_le_dec (/ 100000000) (across r)) as [A|A].
    + eapply answers_more; [|apply bowl_steep; auto]. cbv beta. intro t. split; [intros []; auto|]. intros [(_ & H)|[H _]]; [auto|lra].
    + destruct X as [X|(X1 & X2 & X3)]; [lra|]. eapply answers_more; [|apply bowl_along; auto]. cbv beta. intro t. split; [intros []; auto|]. intros [[H _]|(_ & H)]; [lra|auto].
  - destruct OK as [W L0]. cbn [told]. destruct (plane_every w l r W L0) as [A B]. destruct (Rlt_le_dec (/ 100000000) (Rabs (vz (direction r)))) as [Z|Z].
    + apply answers_inside. left. eapply answers_more; [|apply A; auto]. cbv beta. intro t. tauto.
    + rewrite (B Z). exists []. intros t _. split; [discriminate|intros [? _]; lra].
Qed.

Lemma surf_told : forall s r, surf_ok s -> world_ray r -> steady (s_prim s) (ray_map (s_obj s) r) ->
  exists L, forall t, ~ In t L -> (inside_at xsle (Fin t) (surf_hits s r) = true <-> told (s_prim s) (ray_map (s_obj s) r) t).
Proof.
  intros s r OK W G. pose proof (local_moving s r OK W) as M.
  destruct (prim_told (s_prim s) (ray_map (s_obj s) r)) as [L H]; auto.
  { apply OK. }
  exists L. intros t N. rewrite surf_hits_alt. apply H; auto.
Qed.

Lemma straight_clear : forall r, clear_dir (straightened r).
Proof. intros r. repeat split; apply no_less_clear. Qed.

Section Told.
  Variable asort : list xr -> list nat.
  Hypothesis AS : argsort_ok asort.

  Lemma shape_told : forall s r, tree_ok s -> boxes_valid s -> world_ray r -> steady_tree s r ->
    exists L, forall t, ~ In t L ->
      (inside_at xsle (Fin t) (fst (shape_intersect asort s r)) = true <-> told_tree s r t).
  Proof.
    induction s as [f b|nid op b l IHl r0 IHr]; intros r T V W G.
    - cbn [shape_intersect fst told_tree]. apply surf_told; auto.
    - cbn [tree_ok boxes_valid steady_tree] in T, V, G. destruct T as [Tl Tr], V as (Vb & Vl & Vr), G as (Mv & Gl & Gr).
      pose proof (box_hit_crosses b (straightened r) Vb Mv (straight_clear r)) as HC. rewrite <- box_hit_band in HC.
      cbn [shape_intersect told_tree]. destruct (box_hit b r) eqn:HB.
      + destruct (IHl r Tl Vl W Gl) as [Ll Hl], (IHr r Tr Vr W Gr) as [Lr Hr].
        exists (Ll ++ Lr). intros t N.
        assert (N1 : ~ In t Ll) by (intro; apply N, in_or_app; auto).
        assert (N2 : ~ In t Lr) by (intro; apply N, in_or_app; auto).
        specialize (Hl t N1). specialize (Hr t N2).
        destruct (shape_columns asort AS l r) as (S1 & L1 & _), (shape_columns asort AS r0 r) as (S2 & L2 & _).
        destruct (shape_intersect asort l r) as [lh ls], (shape_intersect asort r0 r) as [rh rs]. cbn [fst snd] in *.
        rewrite (csg_combine_inside xsle PInf asort xsle_trans AS); auto;
          try (rewrite ?L1, ?L2; apply shape_rows_even).
        destruct op; cbn [bool_op].
        * rewrite orb_true_iff, Hl, Hr. tauto.
        * rewrite andb_true_iff, Hl, Hr. tauto.
        * rewrite andb_true_iff, negb_true_iff, Hl, <- Hr. rewrite not_true_iff_false. tauto.
      + cbn [fst]. exists []. intros t _.
        assert (inside_at xsle (Fin t) (repeat PInf (shape_rows (Node nid op b l r0))) = false) as ->.
        { unfold inside_at. rewrite below_none; auto. apply Forall_forall. intros x Hx. apply repeat_spec in Hx. subst; auto. }
        split; [discriminate|]. intros [K _]. apply HC in K. discriminate.
  Qed.

End Told.

Lemma built_told : forall asort, argsort_ok asort -> forall cs h l s, Forall ok_call cs -> run_prog asort cs empty_heap = Ok h -> shape_of h l = Some s ->
  forall asort' r, argsort_ok asort' -> world_ray r -> steady_tree s r ->
  exists L, forall t, ~ In t L ->
    (inside_at xsle (Fin t) (fst (shape_intersect asort' s r)) = true <-> told_tree s r t).
Proof.
  intros asort AS cs h l s F H E asort' r AS' W G. apply shape_told; auto; [eapply prog_tree_ok; eauto|].
  eapply shape_boxes_valid; [|exact E]. eapply (prog_vboxes asort AS); [apply empty_vboxes|eauto].
Qed.

(** ** Away from the band [told] is the solid itself *)
Lemma no_less_id : forall x, clear x -> no_less x = x.
Proof. intros x [->|C]; unfold no_less; destruct (Rle_dec _ _) as [Q|Q]; auto. unfold atol in C. lra. Qed.
Lemma told_solid : forall p r t, good_local p r -> (told p r t <-> solid p (ray_at r t)).
Proof.
  intros p [[ox oy oz ow] [dx dy dz dw]] t [C X]. destruct p as [rad|rad lo hi cap|c0 c1|f h|w l]; cbn [told clear_ray direction vx vy vz] in *.
  - tauto.
  - destruct C as [C1 C2]. unfold across, approach, flattened, axial; cbn [origin direction vx vy vz vw]. rewrite (no_less_id dz C2). destruct C1 as [C1|C1].
    + assert (dx = 0) by nra. assert (dy = 0) by nra. subst dx dy. split; [intros [[H _]|(_ & _ & H)]; [lra|exact H]|intro H; right].
      split; [lra|]. split; [rewrite Rmult_0_l, Rmult_0_l, Rplus_0_r, Rmult_0_r, Rabs_R0; lra|exact H].
    + unfold atol in C1. rewrite Rabs_right in C1 by nra. split; [intros [[_ H]|[H _]]; [exact H|lra]|intro H; left; split; [lra|exact H]].
  - destruct C as (C1 & C2 & C3). unfold straightened; cbn [origin direction vx vy vz vw]. rewrite !no_less_id by auto. tauto.
  - destruct C as (C1 & C2 & C3). unfold across, approach, fall, bowl_height, flattened, approach, ray_at; cbn [solid origin direction vx vy vz vw]. rewrite (no_less_id dz C2). destruct C1 as [C1|C1].
    + assert (dx = 0) by nra. assert (dy = 0) by nra. subst dx dy. split; [intros [[H _]|(_ & H & K)]; [lra|split; lra]|intros [H K]; right].
      split; [lra|]. split; lra.
    + unfold atol in C1. rewrite Rabs_right in C1 by nra. split; [intros [(_ & H & K)|[H _]]; [split; lra|lra]|intros [H K]; left; split; [lra|split; lra]].
  - destruct C as (C1 & C2 & C3). unfold straightened; cbn [origin direction vx vy vz vw]. rewrite !no_less_id by auto.
    destruct C3 as [C3|C3]; [contradiction|]. unfold atol in C3. split; [intros [_ H]; exact H|intro H; split; [lra|exact H]].
Qed.
Lemma good_steady : forall p r, prim_ok p -> moving r -> good_local p r -> steady p r.
Proof.
  intros p [[ox oy oz ow] [dx dy dz dw]] OK M [C X]. destruct p as [rad|rad lo hi cap|c0 c1|f h|w l]; cbn [steady clear_ray direction vx vy vz] in *; auto.
  - destruct C as [C1 C2]. unfold across, approach; cbn [origin direction vx vy vz vw]. destruct C1 as [C1|C1].
    + assert (dx = 0) by nra. assert (dy = 0) by nra. subst dx dy. right. right. destruct C2 as [->|C2]; [exfalso; apply M; auto|exact C2].
    + unfold atol in C1. rewrite Rabs_right in C1 by nra. lra.
  - destruct C as (C1 & C2 & C3). unfold straightened, moving in *; cbn [origin direction vx vy vz vw] in *. rewrite !no_less_id by auto. exact M.
  - destruct OK as [Hf Hh]. destruct C as (C1 & C2 & C3). unfold across, fall, approach; cbn [origin direction vx vy vz vw]. destruct C1 as [C1|C1].
    + assert (dx = 0) by nra. assert (dy = 0) by nra. subst dx dy. right. destruct C2 as [->|C2]; [exfalso; apply M; auto|]. split; [exact C2|].
      assert (dz <> 0) by (intro; subst; rewrite Rabs_R0 in C2; unfold atol in C2; lra).
      replace (2 * (0 * ox + 0 * oy) - 4 * f * dz) with (- (4 * f * dz)) by ring. rewrite Rabs_Ropp. split.
      * destruct C3 as [C3|C3]; [exfalso; apply Rmult_integral in C3; destruct C3; [lra|auto]|exact C3].
      * assert (0 < dz * dz) by nra. nra.
    + unfold atol in C1. rewrite Rabs_right in C1 by nra. lra.
Qed.

(** ** A ray that is not quite parallel to x, and the union of two cuboids *)
From Verif Require Import SeenProps UnionFacts TreeProps TreeExamples WorldExamples.
Definition grazing : ray := Ray (point (-5) (1/2) (1/2)) (vector 1 (1/1000000000) 0).
Lemma grazing_straight : straightened grazing = along.
Proof.
  unfold grazing, straightened, along, point, vector, no_less; cbn [origin direction vx vy vz vw]. f_equal. f_equal.
  - destruct (Rle_dec _ _) as [Q|Q]; auto. rewrite Rabs_right in Q; lra.
  - destruct (Rle_dec _ _) as [Q|Q]; auto. exfalso. apply Q. rewrite Rabs_right; lra.
  - destruct (Rle_dec _ _); auto.
Qed.
Lemma grazing_case : forall asort, argsort_ok asort -> exists h s, run_prog asort two_calls empty_heap = Ok h /\ shape_of h 2%nat = Some s /\
  Forall ok_call two_calls /\ world_ray grazing /\ steady_tree s grazing /\ ~ good_ray s grazing /\ told_tree s grazing (15/2).
Proof.
  intros asort AS. do 2 eexists. split; [unfold two_calls; go; reflexivity|]. split; [reflexivity|].
  split; [repeat constructor|].
  assert (SB : forall p, bounding_box (bounding_points p) = surf_box p mid).
  { intro p. unfold surf_box. f_equal. rewrite <- (map_id (bounding_points p)) at 1. apply map_ext. intro v. symmetry. apply mapply_mid. }
  assert (BX : csg_box asort UNION (bounding_box (bounding_points (PCube (0, 0, 0) (1, 1, 1))))
    (bounding_box (bounding_points (PCube (2, 0, 0) (3, 1, 1)))) = shape_box (two_cubes asort)).
  { rewrite !SB. reflexivity. }
  assert (Mv : moving (straightened grazing)) by (rewrite grazing_straight; apply along_world).
  split; [split; [reflexivity|split; [reflexivity|]]; unfold moving, grazing, vector; cbn [direction vx vy vz]; intros (X & _); lra|].
  split; [|split].
  - cbn [steady_tree s_prim s_obj o_obj]. change (shift 0 0 0) with mid. rewrite !mid_ray. cbn [steady]. split; [exact Mv|]. split; exact Mv.
  - cbn [good_ray]. intros ((_ & [X|X] & _) & _); unfold grazing, vector in X; cbn [direction vy] in X; [lra|]. unfold atol in X. rewrite Rabs_right in X; lra.
  - cbn [told_tree s_prim s_obj o_obj o_box]. change (shift 0 0 0) with mid. rewrite !mid_ray, grazing_straight. split; [rewrite BX; apply two_cubes_crossed; auto|].
    right. cbn [told]. rewrite grazing_straight. unfold along, ray_at, point, vector, solid, between; cbn [origin direction vx vy vz vw]. rewrite !Rmin_left, !Rmax_right by lra. lra.
Qed.
Lemma grazing_moves : moving (straightened grazing) /\ direction (straightened grazing) <> direction grazing.
Proof.
  rewrite grazing_straight. split; [apply along_world|]. unfold along, grazing, vector; cbn [direction]. intro E. injection E as E. lra.
Qed.
