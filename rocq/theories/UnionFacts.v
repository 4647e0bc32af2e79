(** * UnionFacts: crossings of a union; the disjoint union counterexample *)
From Coq Require Import Reals List Bool ZArith Permutation Sorted Lra Lia.
Import ListNotations.
From Verif Require Import XR XRFacts Arr ArrFacts Csg SpecCsg CsgFacts CsgProps Lin LinFacts Ops Prim Surf
  SpecGeom SpecTree PrimFacts PrimFacts2 SpanFacts BoxFacts TreeFacts.
Open Scope R_scope.

Lemma gap : forall (l : list xr) h, exists e, 0 < e /\ forall x, In (Fin x) l -> x <> h -> e <= Rabs (x - h).
Proof.
  induction l as [|a l IH]; intro h.
  - exists 1. split; [lra|]. intros x [].
  - destruct (IH h) as (e & He & H).
    destruct a as [y| | |]; try (exists e; split; auto; intros x [Hx|Hx] N; [discriminate|auto]; fail).
    destruct (Req_dec y h) as [->|N].
    + exists e. split; auto. intros x [Hx|Hx] N; [congruence|auto].
    + exists (Rmin e (Rabs (y - h))). split.
      * apply Rmin_glb_lt; auto. apply Rabs_pos_lt. lra.
      * intros x [Hx|Hx] N'; [injection Hx as ->; apply Rmin_r|].
        eapply Rle_trans; [apply Rmin_l|auto].
Qed.

Lemma below_after : forall l h e t, (forall x, In (Fin x) l -> x <> h -> e <= Rabs (x - h)) ->
  h < t < h + e -> below xsle (Fin t) l = (below xsle (Fin h) l + count_occ xr_eq_dec l (Fin h))%nat.
Proof.
  induction l as [|a l IH]; intros h e t H Ht; auto.
  assert (IH' := IH h e t (fun x Hx => H x (or_intror Hx)) Ht). unfold below in *. cbn [filter count_occ].
  assert (B : before xsle a (Fin t) = true -> before xsle a (Fin h) = true \/ a = Fin h).
  { destruct a as [y| | |]; rewrite ?before_fin; auto. intro Hb. rhyps.
    destruct (Req_dec y h) as [->|N]; auto. left. apply rltb_true.
    pose proof (H y (or_introl eq_refl) N). unfold Rabs in *. destruct (Rcase_abs (y - h)); lra. }
  assert (B' : before xsle a (Fin h) = true -> before xsle a (Fin t) = true).
  { destruct a as [y| | |]; rewrite ?before_fin; auto. intro Hb; rhyps. apply rltb_true. lra. }
  destruct (xr_eq_dec a (Fin h)) as [->|N].
  - assert (before xsle (Fin h) (Fin t) = true) as -> by (rewrite before_fin; apply rltb_true; lra).
    assert (before xsle (Fin h) (Fin h) = false) as -> by (rewrite before_fin; apply rltb_false; lra).
    cbn [length]. lia.
  - destruct (before xsle a (Fin t)) eqn:E1; destruct (before xsle a (Fin h)) eqn:E2; cbn [length]; try lia.
    + destruct (B eq_refl); congruence.
Qed.

Lemma below_before : forall l h e t, (forall x, In (Fin x) l -> x <> h -> e <= Rabs (x - h)) ->
  h - e < t <= h -> below xsle (Fin t) l = below xsle (Fin h) l.
Proof.
  intros l h e t H Ht. unfold below. f_equal. apply filter_ext_in. intros [y| | |] Hy; rewrite ?before_fin; auto.
  destruct (Req_dec y h) as [->|N].
  - unfold rltb. destruct (Rlt_dec h t), (Rlt_dec h h); auto; lra.
  - pose proof (H y Hy N). unfold Rabs, rltb in *. destruct (Rcase_abs (y - h)), (Rlt_dec y t), (Rlt_dec y h); auto; lra.
Qed.

Lemma avoid : forall (L : list R) a b, a < b -> exists t, a < t < b /\ ~ In t L.
Proof.
  induction L as [|x L IH]; intros a b H.
  - exists ((a + b) / 2). split; [lra|auto].
  - destruct (Rlt_dec a x) as [H1|H1].
    + destruct (Rlt_dec x b) as [H2|H2].
      * destruct (IH a x H1) as (t & Ht & N). exists t. split; [lra|]. intros [E|E]; [lra|auto].
      * destruct (IH a b H) as (t & Ht & N). exists t. split; [lra|]. intros [E|E]; [lra|auto].
    + destruct (IH a b H) as (t & Ht & N). exists t. split; [lra|]. intros [E|E]; [lra|auto].
Qed.

Lemma odd_count_in : forall l x, Nat.odd (count_occ xr_eq_dec l x) = true -> In x l.
Proof. intros l x H. apply (count_occ_In xr_eq_dec). destruct (count_occ xr_eq_dec l x); [discriminate|lia]. Qed.

Section Cross.
  Variable asort : list xr -> list nat.
  Hypothesis AS : argsort_ok asort.

  (** a proper crossing of the first array outside the second survives the union *)
  Lemma union_keeps : forall lh ls rh rs h,
    StronglySorted (fun a b => xsle a b = true) lh -> StronglySorted (fun a b => xsle a b = true) rh ->
    Nat.odd (length lh) = false -> Nat.odd (length rh) = false ->
    (Nat.odd (count_occ xr_eq_dec lh (Fin h)) = true /\ ~ In (Fin h) rh /\ inside_at xsle (Fin h) rh = false) \/
    (Nat.odd (count_occ xr_eq_dec rh (Fin h)) = true /\ ~ In (Fin h) lh /\ inside_at xsle (Fin h) lh = false) ->
    In (Fin h) (fst (csg_combine PInf asort UNION lh ls rh rs)).
  Proof.
    intros lh ls rh rs h S1 S2 E1 E2 HC.
    set (out := fst (csg_combine PInf asort UNION lh ls rh rs)).
    destruct (In_dec xr_eq_dec (Fin h) out) as [|N]; auto. exfalso.
    assert (I : forall t, inside_at xsle (Fin t) out = (inside_at xsle (Fin t) lh || inside_at xsle (Fin t) rh)%bool).
    { intro t. unfold out. rewrite (csg_combine_inside xsle PInf asort xsle_trans AS); auto. }
    destruct (gap (lh ++ rh ++ out) h) as (e & He & G).
    assert (G1 : forall x, In (Fin x) lh -> x <> h -> e <= Rabs (x - h)) by (intros; apply G; auto; apply in_or_app; auto).
    assert (G2 : forall x, In (Fin x) rh -> x <> h -> e <= Rabs (x - h)) by (intros; apply G; auto; rewrite !in_app_iff; auto).
    assert (G3 : forall x, In (Fin x) out -> x <> h -> e <= Rabs (x - h)) by (intros; apply G; auto; rewrite !in_app_iff; auto).
    assert (Ht : h < h + e / 2 < h + e) by lra.
    pose proof (I h) as Ih. pose proof (I (h + e / 2)) as It.
    unfold inside_at in *.
    rewrite (below_after lh h e _ G1 Ht), (below_after rh h e _ G2 Ht), (below_after out h e _ G3 Ht) in It.
    rewrite (proj1 (count_occ_not_In xr_eq_dec out (Fin h)) N) in It.
    rewrite !Nat.odd_add in It. rewrite Ih in It.
    destruct HC as [(O & Nr & Z)|(O & Nl & Z)].
    - rewrite (proj1 (count_occ_not_In xr_eq_dec rh (Fin h)) Nr), O, Z in It.
      destruct (Nat.odd (below xsle (Fin h) lh)); discriminate.
    - rewrite (proj1 (count_occ_not_In xr_eq_dec lh (Fin h)) Nl), O, Z in It.
      destruct (Nat.odd (below xsle (Fin h) rh)); discriminate.
  Qed.

  (** a proper crossing means the solid fills an interval next to it *)
  Lemma crossing_interval : forall l h, Nat.odd (count_occ xr_eq_dec l (Fin h)) = true ->
    exists a b, a < b /\ forall t, a < t < b -> inside_at xsle (Fin t) l = true.
  Proof.
    intros l h O. destruct (gap l h) as (e & He & G).
    destruct (inside_at xsle (Fin h) l) eqn:E.
    - exists (h - e), h. split; [lra|]. intros t Ht. unfold inside_at in *. rewrite (below_before l h e); auto. lra.
    - exists h, (h + e). split; [lra|]. intros t Ht. unfold inside_at in *. rewrite (below_after l h e); auto.
      rewrite Nat.odd_add, E, O. reflexivity.
  Qed.

  Lemma union_reports_part : forall nid b l r0 r h,
    tree_ok (Node nid UNION b l r0) -> boxes_current (Node nid UNION b l r0) -> boxes_fit (Node nid UNION b l r0) ->
    world_ray r -> good_ray (Node nid UNION b l r0) r ->
    let lh := fst (shape_intersect asort l r) in
    let rh := fst (shape_intersect asort r0 r) in
    (Nat.odd (count_occ xr_eq_dec lh (Fin h)) = true /\ ~ In (Fin h) rh /\ inside_at xsle (Fin h) rh = false) \/
    (Nat.odd (count_occ xr_eq_dec rh (Fin h)) = true /\ ~ In (Fin h) lh /\ inside_at xsle (Fin h) lh = false) ->
    In (Fin h) (fst (shape_intersect asort (Node nid UNION b l r0) r)).
  Proof.
    intros nid b l r0 r h T C F W G lh rh HC.
    destruct (shape_in_box _ T C F) as [V B].
    pose proof T as [Tl Tr]. pose proof C as (Cl & Cr & _). pose proof F as (Fl & Fr & _). pose proof G as (Cd & Gl & Gr).
    destruct (shape_inside asort AS l r Tl Cl Fl W Gl) as [Ll Hl].
    destruct (shape_inside asort AS r0 r Tr Cr Fr W Gr) as [Lr Hr].
    assert (HB : box_hit b r = true).
    { destruct (box_hit b r) eqn:HB; auto. exfalso.
      assert (U : exists a b', a < b' /\ exists L, forall t, a < t < b' -> ~ In t L -> inside (Node nid UNION b l r0) (ray_at r t)).
      { destruct HC as [(O & _ & _)|(O & _ & _)]; apply crossing_interval in O; destruct O as (x & y & Hxy & K);
          exists x, y; split; auto.
        - exists Ll. intros t Ht N. left. apply Hl; auto.
        - exists Lr. intros t Ht N. right. apply Hr; auto. }
      destruct U as (x & y & Hxy & L & K).
      destruct (avoid L x y Hxy) as (t1 & H1 & N1). destruct (avoid (t1 :: L) x y Hxy) as (t2 & H2 & N2).
      assert (t2 = t1).
      { apply (box_hit_false_point b r V (proj2 (proj2 W)) Cd HB).
        - apply B, K; auto. intro; apply N2; right; auto.
        - apply B, K; auto. }
      apply N2. left; auto. }
    destruct (shape_columns asort AS l r) as (S1 & L1 & _), (shape_columns asort AS r0 r) as (S2 & L2 & _).
    cbn [shape_intersect]. rewrite HB. unfold lh, rh in *.
    destruct (shape_intersect asort l r) as [h1 i1], (shape_intersect asort r0 r) as [h2 i2]. cbn [fst snd] in *.
    apply union_keeps; auto; rewrite ?L1, ?L2; apply shape_rows_even.
  Qed.
End Cross.

(** ** Concrete surfaces at the origin *)
Definition at_origin (i : Z) (p : prim) : surf := Surf i p mid mid 1 Absorber.

Lemma list_min_eq : forall l m, In m l -> (forall y, In y l -> m <= y) -> list_min l = m.
Proof.
  intros l m I H. apply Rle_antisym; [apply list_min_le; auto|].
  apply H. apply list_min_in. intro E; subst; destruct I.
Qed.
Lemma list_max_eq : forall l m, In m l -> (forall y, In y l -> y <= m) -> list_max l = m.
Proof.
  intros l m I H. apply Rle_antisym; [|apply list_max_ge; auto].
  apply H. apply list_max_in. intro E; subst; destruct I.
Qed.

Lemma surf_box_mid : forall p x0 y0 z0 x1 y1 z1, prim_corners p = ((x0, y0, z0), (x1, y1, z1)) ->
  surf_box p mid = Box (Fin (Rmin x0 x1), Fin (Rmax x0 x1)) (Fin (Rmin y0 y1), Fin (Rmax y0 y1)) (Fin (Rmin z0 z1), Fin (Rmax z0 z1)).
Proof.
  intros p x0 y0 z0 x1 y1 z1 E. unfold surf_box.
  assert (M : map (mapply mid) (bounding_points p) = bounding_points p).
  { rewrite <- (map_id (bounding_points p)) at 2. apply map_ext. apply mapply_mid. }
  rewrite M, bounding_box_spans by apply bounding_points_nonempty.
  unfold bounding_points. rewrite E.
  assert (MM : forall a b, Rmin a b <= Rmax a b) by (intros; unfold Rmin, Rmax; destruct (Rle_dec a b); lra).
  pose proof (MM x0 x1); pose proof (MM y0 y1); pose proof (MM z0 z1).
  cbn [corner_points flat_map map app point vx vy vz].
  f_equal; f_equal; f_equal; (apply list_min_eq || apply list_max_eq); simpl; auto 20;
    intros y Hy; repeat (destruct Hy as [<-|Hy]; [lra|]); destruct Hy.
Qed.

(** ** Two separate cuboids *)
Definition cube_a : surf := at_origin 0 (PCube (0, 0, 0) (1, 1, 1)).
Definition cube_b : surf := at_origin 1 (PCube (2, 0, 0) (3, 1, 1)).
Definition leaf_of (s : surf) : shape := Leaf s (surf_box (s_prim s) (s_world s)).
(** union(cube_a, cube_b), built as the code builds it *)
Definition two_cubes (asort : list xr -> list nat) : shape :=
  Node 2 UNION (csg_box asort UNION (shape_box (leaf_of cube_a)) (shape_box (leaf_of cube_b)))
       (leaf_of cube_a) (leaf_of cube_b).
Definition side_ray : ray := Ray (point (5/2) (-5) (1/2)) (vector 0 1 0).

Lemma box_a : shape_box (leaf_of cube_a) = Box (Fin 0, Fin 1) (Fin 0, Fin 1) (Fin 0, Fin 1).
Proof.
  cbn [leaf_of shape_box cube_a at_origin s_prim s_world]. rewrite (surf_box_mid _ 0 0 0 1 1 1) by reflexivity.
  rewrite !Rmin_left, !Rmax_right by lra. auto.
Qed.
Lemma box_b : shape_box (leaf_of cube_b) = Box (Fin 2, Fin 3) (Fin 0, Fin 1) (Fin 0, Fin 1).
Proof.
  cbn [leaf_of shape_box cube_b at_origin s_prim s_world]. rewrite (surf_box_mid _ 2 0 0 3 1 1) by reflexivity.
  rewrite !Rmin_left, !Rmax_right by lra. auto.
Qed.

Lemma two_cubes_box : forall asort, argsort_ok asort ->
  shape_box (two_cubes asort) = Box (Fin 0, Fin 1) (Fin 0, Fin 1) (Fin 0, Fin 1).
Proof.
  intros asort AS. cbn [two_cubes shape_box]. rewrite box_a, box_b. cbn [csg_box spanx spany spanz].
  rewrite union_apart, !union_overlap by (auto; unfold Rmin, Rmax; repeat destruct (Rle_dec _ _); lra).
  rewrite !Rmin_left, !Rmax_right by lra. auto.
Qed.

Lemma side_ray_world : world_ray side_ray.
Proof. unfold world_ray, moving, side_ray, point, vector; cbn [origin direction vx vy vz vw]. repeat split; try lra. Qed.
Lemma side_ray_clear : clear_dir side_ray.
Proof.
  unfold clear_dir, clear, side_ray, point, vector; cbn [origin direction vx vy vz vw].
  repeat split; auto. right. unfold atol. rewrite Rabs_right; lra.
Qed.

Lemma two_cubes_missed : forall asort asort', argsort_ok asort ->
  shape_intersect asort' (two_cubes asort) side_ray = ([PInf; PInf; PInf; PInf], [-1; -1; -1; -1]%Z).
Proof.
  intros asort asort' AS. unfold two_cubes. cbn [shape_intersect].
  assert (box_hit (csg_box asort UNION (shape_box (leaf_of cube_a)) (shape_box (leaf_of cube_b))) side_ray = false) as ->.
  2: reflexivity.
  change (csg_box asort UNION (shape_box (leaf_of cube_a)) (shape_box (leaf_of cube_b))) with (shape_box (two_cubes asort)).
  rewrite two_cubes_box by auto. destruct (box_hit _ _) eqn:E; auto. exfalso. unfold box_hit in E.
  destruct (cube_hits_exact 0 1 0 1 0 1 side_ray) as [(t0 & t1 & E' & L & Q)|[E' _]]; try lra;
    try apply side_ray_world; try apply side_ray_clear.
  - destruct (Q t0) as [_ K]. destruct K as [K _]; [lra|]. unfold side_ray, ray_at, point, vector in K; cbn [origin direction vx] in K. lra.
  - unfold fin_box in E'. rewrite E' in E. discriminate.
Qed.

Lemma cube_b_hit : forall asort', fst (shape_intersect asort' (leaf_of cube_b) side_ray) = [Fin 5; Fin 6].
Proof.
  intros asort'. cbn [leaf_of shape_intersect fst]. rewrite surf_hits_alt. cbn [cube_b at_origin s_prim s_obj].
  assert (E : ray_map mid side_ray = side_ray).
  { unfold ray_map. rewrite !mapply_mid. destruct side_ray; auto. }
  rewrite E.
  pose proof (cube_prim_exact 2 3 0 1 0 1 side_ray (proj2 (proj2 side_ray_world)) side_ray_clear) as [(t0 & t1 & H & L & Q)|[H Q]];
    cbv zeta in *; unfold side_ray, ray_at, point, vector, solid, between in Q; cbn [origin direction vx vy vz] in Q;
    rewrite !Rmin_left, !Rmax_right in Q by lra.
  - rewrite H. rewrite sort2_fin, Rmin_left, Rmax_right by lra. cbn [fst snd].
    assert (t0 = 5).
    { destruct (Q 5) as [Q1 _]. destruct (Q t0) as [_ Q2]. assert (t0 <= 5 <= t1) by (apply Q1; lra). assert (0 <= -5 + t0 * 1 <= 1) by (apply Q2; lra). lra. }
    assert (t1 = 6).
    { destruct (Q 6) as [Q1 _]. destruct (Q t1) as [_ Q2]. assert (t0 <= 6 <= t1) by (apply Q1; lra). assert (0 <= -5 + t1 * 1 <= 1) by (apply Q2; lra). lra. }
    subst; auto.
  - exfalso. assert (5 = 6) by (apply Q; lra). lra.
Qed.
