(** * TreeProps: the tree lemmas in the form used by the property theorems *)
From Coq Require Import Reals List Bool ZArith Permutation Sorted Lra Lia Classical_Prop.
Import ListNotations.
From Verif Require Import XR XRFacts Arr ArrFacts Csg SpecCsg CsgFacts CsgProps Lin LinFacts Ops Prim Surf
  SpecGeom SpecTree PrimFacts PrimFacts2 SpanFacts BoxFacts TreeFacts UnionFacts SurfFacts TreeExamples.
Open Scope R_scope.

Lemma csg_rows : forall asort, argsort_ok asort ->
  forall nid op b l r ray,
  let out := shape_intersect asort (Node nid op b l r) ray in
  let left_rows := shape_intersect asort l ray in
  let right_rows := shape_intersect asort r ray in
  ascending xsle (fst out) /\
  length (fst out) = length (snd out) /\
  length (fst out) = (length (fst left_rows) + length (fst right_rows))%nat /\
  (forall h i, In (h, i) (combine (fst out) (snd out)) -> h <> PInf ->
     In (h, i) (combine (fst left_rows) (snd left_rows)) \/
     In (h, i) (combine (fst right_rows) (snd right_rows))) /\
  (box_hit b ray = false ->
     (forall h, In h (fst out) -> h = PInf) /\ (forall i, In i (snd out) -> i = (-1)%Z)).
Proof.
  intros asort AS nid op b l r ray out lr rr.
  destruct (shape_columns asort AS (Node nid op b l r) ray) as (S & L1 & L2).
  destruct (shape_columns asort AS l ray) as (_ & L3 & _), (shape_columns asort AS r ray) as (_ & L4 & _).
  split; [apply sorted_asc; auto|]. unfold out, lr, rr in *. split; [congruence|]. split.
  - rewrite L1, L3, L4. reflexivity.
  - split.
    + intros h i H N. apply (shape_pairs asort AS) in H. destruct H as [|H]; [contradiction|auto].
    + intro HB. cbn [shape_intersect]. rewrite HB. cbn [fst snd]. split; intros x Hx; apply repeat_spec in Hx; auto.
Qed.

Lemma two_cubes_refuted : forall asort asort', argsort_ok asort ->
  tree_ok (two_cubes asort) /\ boxes_current (two_cubes asort) /\ world_ray side_ray /\
  fst (shape_intersect asort' (leaf_of cube_b) side_ray) = [Fin 5; Fin 6] /\
  inside (two_cubes asort) (ray_at side_ray (11/2)) /\
  fst (shape_intersect asort' (two_cubes asort) side_ray) = [PInf; PInf; PInf; PInf].
Proof.
  intros asort asort' AS. split; [|split; [|split; [|split; [|split]]]].
  - split; apply at_origin_ok; exact I.
  - cbn. eauto.
  - apply side_ray_world.
  - apply cube_b_hit.
  - right. exists (ray_at side_ray (11/2)). cbn [cube_b at_origin s_prim s_world]. rewrite mapply_mid.
    unfold side_ray, ray_at, point, vector, solid, between; cbn [origin direction vx vy vz vw].
    rewrite !Rmin_left, !Rmax_right by lra. repeat split; lra.
  - rewrite two_cubes_missed by auto. auto.
Qed.

(** intervals that neither overlap nor are apart share at most one point *)
Lemma touching_point : forall op a b x x', op = INTERSECT \/ op = DIFFERENCE -> vspan a -> vspan b ->
  ~ span_fits op a b -> in_span a x -> in_span b x -> in_span a x' -> in_span b x' -> x = x'.
Proof.
  intros op a b x x' Hop Va Vb N A B A' B'. destruct Hop as [-> | ->]; [|exfalso; apply N; exact I].
  destruct Va as [(a0 & a1 & -> & Ha)| ->]; [|destruct A; discriminate].
  destruct Vb as [(b0 & b1 & -> & Hb)| ->]; [|destruct B; discriminate].
  unfold span_fits, overlapping, apart in N; cbn [fst snd] in N. rewrite xmax_fin, xmin_fin in N. cbn [xltb] in N.
  unfold in_span in *; cbn [fst snd xleb] in *. rewrite !rleb_true in *. rewrite !rltb_true in N.
  assert (Rmax a0 b0 = Rmin a1 b1) by (apply Rle_antisym; apply Rnot_lt_le; tauto).
  assert (Rmax a0 b0 <= x) by (apply Rmax_lub; tauto). assert (x <= Rmin a1 b1) by (apply Rmin_glb; tauto).
  assert (Rmax a0 b0 <= x') by (apply Rmax_lub; tauto). assert (x' <= Rmin a1 b1) by (apply Rmin_glb; tauto).
  lra.
Qed.

Lemma move_point : forall o d t t' : R, d <> 0 -> o + t * d = o + t' * d -> t = t'.
Proof. intros o d t t' D E. apply (Rmult_eq_reg_r d); auto. lra. Qed.

Lemma culling_sound : forall asort, argsort_ok asort ->
  forall op a b (A B : v4 -> Prop) r,
  op <> UNION -> vbox a -> vbox b -> fits_across op a b r ->
  (forall q, A q -> in_box a q) -> (forall q, B q -> in_box b q) ->
  moving r -> clear_dir r ->
  box_hit (csg_box asort op a b) r = false ->
  let region q := match op with INTERSECT => A q /\ B q | _ => A q /\ ~ B q end in
  forall t t', region (ray_at r t) -> region (ray_at r t') -> t = t'.
Proof.
  intros asort AS op a b A B r Hop Va Vb (Fx & Fy & Fz) HA HB M C H region t t' R1 R2.
  destruct (classic (box_fits op a b)) as [F|F].
  - destruct (csg_box_sound asort AS op a b Va Vb F) as [V K].
    apply (box_hit_false_point (csg_box asort op a b) r V M C H); apply K; unfold region in *;
      destruct op; try congruence; destruct R1, R2; auto.
  - destruct op; [congruence| |exfalso; apply F; repeat split].
    destruct R1 as [A1 B1], R2 as [A2 B2]. apply HA in A1, A2. apply HB in B1, B2.
    destruct A1 as (? & ? & ?), A2 as (? & ? & ?), B1 as (? & ? & ?), B2 as (? & ? & ?).
    destruct Va as (? & ? & ?), Vb as (? & ? & ?).
    destruct (classic (span_fits INTERSECT (spanx a) (spanx b))) as [Ex|Ex].
    + destruct (classic (span_fits INTERSECT (spany a) (spany b))) as [Ey|Ey].
      * destruct (classic (span_fits INTERSECT (spanz a) (spanz b))) as [Ez|Ez].
        -- exfalso. apply F. repeat split; auto.
        -- apply (move_point (vz (origin r)) (vz (direction r))); [tauto|].
           eapply (touching_point INTERSECT (spanz a) (spanz b)); eauto.
      * apply (move_point (vy (origin r)) (vy (direction r))); [tauto|].
        eapply (touching_point INTERSECT (spany a) (spany b)); eauto.
    + apply (move_point (vx (origin r)) (vx (direction r))); [tauto|].
      eapply (touching_point INTERSECT (spanx a) (spanx b)); eauto.
Qed.

(** two cuboids sharing the face x = 1, and a ray in that face *)
Definition cube_c : surf := at_origin 1 (PCube (1, 0, 0) (2, 1, 1)).
Definition face (asort : list xr -> list nat) : shape :=
  Node 2 INTERSECT (csg_box asort INTERSECT (shape_box (leaf_of cube_a)) (shape_box (leaf_of cube_c)))
       (leaf_of cube_a) (leaf_of cube_c).
Definition face_ray : ray := Ray (point 1 (-5) (1/2)) (vector 0 1 0).

Lemma box_c : shape_box (leaf_of cube_c) = Box (Fin 1, Fin 2) (Fin 0, Fin 1) (Fin 0, Fin 1).
Proof.
  cbn [leaf_of shape_box cube_c at_origin s_prim s_world]. rewrite (surf_box_mid _ 1 0 0 2 1 1) by reflexivity.
  rewrite !Rmin_left, !Rmax_right by lra. auto.
Qed.

Lemma inter_touch_stable :
  combine_span (argsort_stable xsle PInf) INTERSECT (Fin 0, Fin 1) (Fin 1, Fin 2) = (PInf, PInf).
Proof.
  unfold combine_span, array_csg, array_csg_unsorted; cbn [fst snd app length].
  assert (E : argsort_stable xsle PInf [Fin 0; Fin 1; Fin 1; Fin 2] = [0; 1; 2; 3]%nat).
  { unfold argsort_stable; cbn [seq length fold_right insert_idx nth xsle xleb].
    repeat (match goal with |- context [rleb ?x ?y] => replace (rleb x y) with true by (symmetry; apply rleb_true; lra) end;
      cbn [insert_idx nth xsle xleb]). reflexivity. }
  rewrite E. reflexivity.
Qed.

Lemma face_missed : forall asort', let asort := argsort_stable xsle PInf in
  argsort_ok asort /\ tree_ok (face asort) /\ boxes_current (face asort) /\ world_ray face_ray /\
  (forall t, 5 <= t <= 6 -> inside (face asort) (ray_at face_ray t)) /\
  fst (shape_intersect asort' (face asort) face_ray) = [PInf; PInf; PInf; PInf].
Proof.
  intros asort' asort. split; [apply argsort_ok_stable|]. split; [|split; [|split; [|split]]].
  - split; apply at_origin_ok; exact I.
  - cbn. repeat split; auto. exists asort. split; auto. apply argsort_ok_stable.
  - unfold world_ray, moving, face_ray, point, vector; cbn [origin direction vx vy vz vw]. repeat split; try lra.
  - intros t Ht. split; exists (ray_at face_ray t); cbn [cube_a cube_c at_origin s_prim s_world]; rewrite mapply_mid;
    unfold face_ray, ray_at, point, vector, solid, between; cbn [origin direction vx vy vz vw];
    rewrite !Rmin_left, !Rmax_right by lra; repeat split; lra.
  - unfold face. cbn [shape_intersect].
    assert (box_hit (csg_box asort INTERSECT (shape_box (leaf_of cube_a)) (shape_box (leaf_of cube_c))) face_ray = false) as ->.
    2: reflexivity.
    rewrite box_a, box_c. cbn [csg_box spanx spany spanz]. unfold asort. rewrite inter_touch_stable.
    unfold box_hit, cube_hits, face_ray, point, vector; cbn [origin direction vx vy vz spanx spany spanz].
    assert (K : cube_axis_hits (PInf, PInf) 1 0 = (PInf, PInf)).
    { unfold cube_axis_hits. rewrite isclose0_0. reflexivity. }
    rewrite K. destruct (cube_axis_hits _ (-5) 1) as [a0 a1], (cube_axis_hits _ (1/2) 0) as [b0 b1].
    match goal with |- (let '(h0, h1) := ?e in _) = _ => assert (E : e = (PInf, PInf)) end.
    { cbn [fst snd]. destruct a0, a1, b0, b1; cbn; try reflexivity; rcases; reflexivity. }
    rewrite E. reflexivity.
Qed.

Lemma stored_box_contains : forall s, tree_ok s -> boxes_current s -> boxes_fit s ->
  forall q, inside s q -> in_box (shape_box s) q.
Proof. intros s T C F. apply shape_in_box; auto. Qed.

Lemma bowl_refuted : exists s r, surf_ok s /\ vw (origin r) = 1 /\ direction r = V4 0 0 0 0 /\
    surf_hits s r = [Fin 4; PInf].
Proof.
  exists bowl, dead_ray. split; [apply at_origin_ok; simpl; lra|]. split; auto. split; auto. apply bowl_hit.
Qed.

(** ** Cases used by the examples *)
Lemma ball_far : forall asort, let lh := fst (shape_intersect asort (leaf_of ball) long_ray) in
  ~ In (Fin 7) lh /\ inside_at xsle (Fin 7) lh = false.
Proof.
  intros asort lh. unfold lh; cbn [leaf_of shape_intersect fst].
  assert (G : good_local (s_prim ball) (ray_map (s_obj ball) long_ray)) by (split; exact I).
  assert (N : ~ placed ball (ray_at long_ray 7)).
  { intros (p & Hw & S & E). cbn [ball at_origin s_prim s_world] in *. rewrite mapply_mid in E. subst p.
    unfold solid, ray_at, long_ray, point, vector in S; cbn [origin direction vx vy vz vw] in S. lra. }
  destruct (surf_chord ball long_ray) as [(t0 & t1 & E & L & Q)|[E _]]; auto using at_origin_ok, long_ray_world.
  - apply at_origin_ok. simpl. lra.
  - rewrite E. assert (P : placed ball (ray_at long_ray 5)).
    { exists (ray_at long_ray 5). cbn [ball at_origin s_prim s_world]. rewrite mapply_mid.
      unfold solid, ray_at, long_ray, point, vector; cbn [origin direction vx vy vz vw]. repeat split; lra. }
    apply Q in P. rewrite Q in N. assert (t1 < 7) by lra. split.
    + intros [H0|[H0|[]]]; injection H0; intro; lra.
    + unfold inside_at, below, before. cbn [filter xsle xleb].
      rewrite (proj2 (rleb_false 7 t0)) by lra. rewrite (proj2 (rleb_false 7 t1)) by lra. reflexivity.
  - rewrite E. split; [intros [H|[H|[]]]; discriminate|]. reflexivity.
Qed.

Lemma block_far : forall asort, fst (shape_intersect asort (leaf_of block) long_ray) = [Fin 5; Fin 7].
Proof.
  intros asort. cbn [leaf_of shape_intersect fst].
  assert (G : good_local (s_prim block) (ray_map (s_obj block) long_ray)).
  { cbn [block at_origin s_prim s_obj]. rewrite ray_map_mid. split; [exact long_ray_clear|exact I]. }
  assert (P : forall t, placed block (ray_at long_ray t) <-> 5 <= t <= 7).
  { intro t. unfold placed. cbn [block at_origin s_prim s_world]. split.
    - intros (p & _ & S & E). rewrite mapply_mid in E. subst p.
      unfold solid, between, ray_at, long_ray, point, vector in S; cbn [origin direction vx vy vz vw] in S.
      rewrite !Rmin_left, !Rmax_right in S by lra. lra.
    - intro H. exists (ray_at long_ray t). rewrite mapply_mid.
      unfold solid, between, ray_at, long_ray, point, vector; cbn [origin direction vx vy vz vw].
      rewrite !Rmin_left, !Rmax_right by lra. repeat split; lra. }
  destruct (surf_chord block long_ray) as [(t0 & t1 & E & L & Q)|[E Q]]; auto using at_origin_ok, long_ray_world.
  - apply at_origin_ok. exact I.
  - rewrite E. assert (t0 = 5 /\ t1 = 7) as [-> ->]; auto.
    assert (t0 <= 5 <= t1) by (apply Q, P; lra). assert (t0 <= 7 <= t1) by (apply Q, P; lra).
    assert (5 <= t0 <= 7) by (apply P, Q; lra). assert (5 <= t1 <= 7) by (apply P, Q; lra). lra.
  - exfalso. assert (5 = 7) by (apply Q; apply P; lra). lra.
Qed.

Lemma blob_case : forall asort, argsort_ok asort ->
  tree_ok (blob asort) /\ boxes_current (blob asort) /\ boxes_fit (blob asort) /\
  world_ray long_ray /\ good_ray (blob asort) long_ray /\
  let lh := fst (shape_intersect asort (leaf_of ball) long_ray) in
  let rh := fst (shape_intersect asort (leaf_of block) long_ray) in
  Nat.odd (count_occ xr_eq_dec rh (Fin 7)) = true /\ ~ In (Fin 7) lh /\ inside_at xsle (Fin 7) lh = false.
Proof.
  intros asort AS. split; [apply (part_tree_ok asort)|]. split; [apply (part_boxes_current asort AS)|].
  split; [apply blob_fits|]. split; [apply long_ray_world|]. split; [apply (long_ray_good asort)|].
  intros lh rh. split; [|apply ball_far]. unfold rh. rewrite block_far. cbn [count_occ].
  destruct (xr_eq_dec (Fin 5) (Fin 7)) as [H|_]; [injection H; lra|].
  destruct (xr_eq_dec (Fin 7) (Fin 7)) as [_|H]; [reflexivity|congruence].
Qed.

Definition big_a : box := Box (Fin 0, Fin 2) (Fin 0, Fin 2) (Fin 0, Fin 2).
Definition big_b : box := Box (Fin 1, Fin 3) (Fin 1, Fin 3) (Fin 1, Fin 3).
Definition low_ray : ray := Ray (point (-5) (1/2) (1/2)) (vector 1 0 0).

Lemma big_case : forall asort, argsort_ok asort ->
  vbox big_a /\ vbox big_b /\ fits_across INTERSECT big_a big_b low_ray /\
  moving low_ray /\ clear_dir low_ray /\ box_hit (csg_box asort INTERSECT big_a big_b) low_ray = false /\
  in_box big_a (ray_at low_ray 6).
Proof.
  intros asort AS. unfold big_a, big_b.
  assert (V : forall a b, a <= b -> vspan (Fin a, Fin b)) by (intros a b H; left; eauto).
  assert (M : moving low_ray) by (unfold moving, low_ray, point, vector; cbn [direction vx vy vz]; lra).
  assert (C : clear_dir low_ray).
  { unfold clear_dir, clear, low_ray, vector; cbn [direction vx vy vz]. repeat split; auto. right. unfold atol. rewrite Rabs_right; lra. }
  split; [repeat split; apply V; lra|]. split; [repeat split; apply V; lra|]. split.
  { assert (overlapping (Fin 0, Fin 2) (Fin 1, Fin 3)).
    { unfold overlapping; cbn [fst snd]. rewrite xmax_fin, xmin_fin. cbn [xltb]. apply rltb_true.
      rewrite Rmax_right, Rmin_left by lra. lra. }
    repeat split; intros _; left; auto. }
  split; auto. split; auto. split.
  - cbn [csg_box spanx spany spanz].
    rewrite !inter_overlap by (auto; rewrite ?Rmax_right, ?Rmin_left by lra; lra).
    rewrite !Rmax_right, !Rmin_left by lra.
    destruct (box_hit _ _) eqn:E; auto. exfalso. unfold box_hit in E. destruct C as (C1 & C2 & C3).
    destruct (cube_hits_exact 1 2 1 2 1 2 low_ray) as [(t0 & t1 & E' & L & Q)|[E' _]]; try lra; auto.
    + destruct (Q t0) as [_ K]. destruct K as (_ & K & _); [lra|]. unfold low_ray, ray_at, point, vector in K; cbn [origin direction vy] in K. lra.
    + unfold fin_box in E'. rewrite E' in E. discriminate.
  - unfold in_box, in_span, low_ray, ray_at, point, vector; cbn [origin direction vx vy vz fst snd xleb spanx spany spanz].
    rewrite !rleb_true. lra.
Qed.

Lemma dead_case : forall asort,
  length (fst (shape_intersect asort (leaf_of ball) dead_ray)) = 2%nat /\ direction dead_ray = V4 0 0 0 0 /\
  placed ball (origin dead_ray).
Proof.
  intro asort. split; [|split; auto].
  - cbn [leaf_of shape_intersect fst]. unfold surf_hits. destruct (sort2 _). reflexivity.
  - exists (origin dead_ray). cbn [ball at_origin s_prim s_world]. rewrite mapply_mid.
    unfold solid, dead_ray, point; cbn [origin vx vy vz vw]. repeat split; lra.
Qed.
