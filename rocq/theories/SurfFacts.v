(** * SurfFacts: placed surfaces; rays that go nowhere *)
From Coq Require Import Reals List Bool ZArith Lra Psatz.
Import ListNotations.
From Verif Require Import XR XRFacts Arr Csg SpecCsg CsgProps Lin LinFacts Ops Prim Surf SpecGeom SpecTree PrimFacts PrimFacts2
  SpanFacts BoxFacts TreeFacts UnionFacts.
Open Scope R_scope.

Lemma prim_chord : forall p r, prim_ok p -> moving r -> good_local p r ->
  let h := sort2 (prim_hits p r) in
  (exists t0 t1, h = (Fin t0, Fin t1) /\ t0 <= t1 /\ forall t, solid p (ray_at r t) <-> t0 <= t <= t1) \/
  (h = (PInf, PInf) /\ forall t t', solid p (ray_at r t) -> solid p (ray_at r t') -> t = t').
Proof.
  intros p r OK M [C X]. cbv zeta.
  assert (K : forall h, answers h (fun t => solid p (ray_at r t)) \/ answers_thick h (fun t => solid p (ray_at r t)) ->
    (exists t0 t1, sort2 h = (Fin t0, Fin t1) /\ t0 <= t1 /\ forall t, solid p (ray_at r t) <-> t0 <= t <= t1) \/
    (sort2 h = (PInf, PInf) /\ forall t t', solid p (ray_at r t) -> solid p (ray_at r t') -> t = t')).
  { intros h [[(t0 & t1 & -> & L & Q)|[-> Q]]|[(t0 & t1 & -> & L & Q)|[-> Q]]].
    - left. exists t0, t1. rewrite sort2_fin, Rmin_left, Rmax_right by auto. auto.
    - right. split; auto. intros t t' H. destruct (Q t H).
    - left. exists t0, t1. rewrite sort2_fin, Rmin_left, Rmax_right by lra. split; auto. split; auto. lra.
    - right. split; auto. }
  destruct p as [rad|rad lo hi cap|c0 c1|f h|w l].
  - destruct (sphere_hits_exact rad r M) as [A _]. cbn [prim_hits].
    destruct (sphere_hits rad r) as [a b]. cbn [fst snd] in A. rewrite sort2_rev. apply K; auto.
  - apply K. left. destruct OK. apply cylinder_hits_exact; auto.
  - destruct c0 as [[x0 y0] z0], c1 as [[x1 y1] z1]. apply K. right.
    exact (cube_prim_exact x0 x1 y0 y1 z0 z1 r M C).
  - apply K. left. destruct OK. apply paraboloid_hits_exact; auto.
  - apply K. left. destruct OK. apply plane_hits_exact; auto.
Qed.

Lemma surf_chord : forall s r, surf_ok s -> world_ray r -> good_local (s_prim s) (ray_map (s_obj s) r) ->
  (exists t0 t1, surf_hits s r = [Fin t0; Fin t1] /\ t0 <= t1 /\ forall t, placed s (ray_at r t) <-> t0 <= t <= t1) \/
  (surf_hits s r = [PInf; PInf] /\ forall t t', placed s (ray_at r t) -> placed s (ray_at r t') -> t = t').
Proof.
  intros s r OK W G. pose proof (local_moving s r OK W) as M.
  assert (P : forall t, placed s (ray_at r t) <-> solid (s_prim s) (ray_at (ray_map (s_obj s) r) t)).
  { intro t. rewrite ray_at_map. apply placed_local; auto. apply ray_at_w; auto. }
  rewrite surf_hits_alt.
  destruct (prim_chord _ _ (proj1 OK) M G) as [(t0 & t1 & E & L & Q)|[E Q]]; cbv zeta in *; rewrite E; cbn [fst snd].
  - left. exists t0, t1. split; auto. split; auto. intro t. rewrite P. auto.
  - right. split; auto. intros t t'. rewrite !P. auto.
Qed.

Lemma surf_hit_on_surface : forall s r t, surf_ok s -> world_ray r -> good_local (s_prim s) (ray_map (s_obj s) r) ->
  In (Fin t) (surf_hits s r) ->
  exists p, on_surface (s_prim s) p /\ mapply (s_world s) p = ray_at r t.
Proof.
  intros s r t OK W [C X] H. exists (mapply (s_obj s) (ray_at r t)).
  split; [|apply inverse_apply_r; apply OK]. rewrite <- ray_at_map.
  apply prim_hits_surface; auto.
  - apply OK.
  - apply local_moving; auto.
  - apply ends_sort2. rewrite surf_hits_alt in H. unfold ends. destruct H as [H|[H|[]]]; auto.
Qed.

Lemma ray_distance : forall r t, world_ray r -> vnorm (direction r) = 1 ->
  vnorm (vsub (ray_at r t) (origin r)) = Rabs t.
Proof.
  intros r t (Wo & Wd & _) N.
  assert (E : vsub (ray_at r t) (origin r) = vscale t (direction r)).
  { destruct r as [[ox oy oz ow] [dx dy dz dw]]. unfold vsub, vadd, vopp, vscale, ray_at; cbn [origin direction vx vy vz vw]. f_equal; ring. }
  rewrite E. unfold vnorm in *. rewrite vdot_scale_l, vdot_scale_r, <- Rmult_assoc.
  rewrite sqrt_mult_alt by nra. rewrite N, Rmult_1_r. apply sqrt_Rsqr_abs.
Qed.

(** ** Rays that go nowhere *)
Definition no_finite (h : xr * xr) : Prop := xfinite (fst h) = false /\ xfinite (snd h) = false.

Lemma sort2_no_finite : forall h, no_finite h -> no_finite (sort2 h).
Proof. intros [a b] [A B]. unfold sort2; cbn [fst snd]. destruct (xsle a b); split; auto. Qed.

Lemma clip_no_finite : forall h1 h2, no_finite h1 -> no_finite h2 -> no_finite (clip_hits h1 h2).
Proof.
  intros h1 h2 H1 H2. apply sort2_no_finite in H1. apply sort2_no_finite in H2. unfold clip_hits.
  destruct (sort2 h1) as [a0 a1], (sort2 h2) as [b0 b1]. destruct H1, H2. cbn [fst snd] in *.
  destruct (xleb _ _); [|split; auto].
  split; cbn [fst snd].
  - destruct a0, b0; simpl in *; auto; discriminate.
  - destruct a1, b1; simpl in *; auto; discriminate.
Qed.

Lemma z_clip_still : forall lo hi oz, no_finite (z_clip lo hi oz 0).
Proof. intros. unfold z_clip. rewrite isclose0_0. destruct (_ && _)%bool; split; auto. Qed.

Lemma cube_axis_no_finite : forall s o, no_finite (cube_axis_hits s o 0).
Proof.
  intros [lo hi] o. unfold cube_axis_hits. rewrite isclose0_0. simpl negb. cbv iota. apply sort2_no_finite.
  destruct (_ && _)%bool; split; auto.
Qed.

Lemma xmax_no_finite : forall a b, xfinite a = false -> xfinite b = false -> xfinite (xmax a b) = false.
Proof. intros [] []; simpl; auto; discriminate. Qed.
Lemma xmin_no_finite : forall a b, xfinite a = false -> xfinite b = false -> xfinite (xmin a b) = false.
Proof. intros [] []; simpl; auto; discriminate. Qed.

Lemma prim_still : forall p r, direction r = V4 0 0 0 0 ->
  match p with PParaboloid _ _ => False | _ => True end -> no_finite (prim_hits p r).
Proof.
  intros [rad|rad lo hi cap|[[x0 y0] z0] [[x1 y1] z1]|f h|w l] [[ox oy oz ow] d] D X; cbn [direction] in D; subst d; cbn [prim_hits]; [| | |destruct X|].
  - unfold sphere_hits; cbn [origin direction vx vy vz]. destruct (rleb _ _); [|split; auto].
    replace (2 * (0 * 0 + 0 * 0 + 0 * 0)) with 0 by ring. unfold xdiv. destruct (Req_EM_T 0 0); [|lra].
    unfold no_finite, inf_sign; cbn [fst snd]. split; repeat destruct (Rlt_dec _ _); auto.
  - unfold cylinder_hits; cbn [origin direction vx vy vz]. apply clip_no_finite; [|apply z_clip_still].
    apply sort2_no_finite. unfold binomial_root.
    replace (0 * 0 + 0 * 0) with 0 by ring. replace (2 * (0 * ox + 0 * oy)) with 0 by ring.
    rewrite !isclose0_0. simpl andb. cbv iota.
    destruct (rleb 0 (0 * 0 - _)); destruct (rleb _ 0); split; auto.
  - cbn [fin3 cube_box]. unfold cube_hits; cbn [origin direction vx vy vz spanx spany spanz].
    pose proof (cube_axis_no_finite (sort2 (Fin x0, Fin x1)) ox) as Kx.
    pose proof (cube_axis_no_finite (sort2 (Fin y0, Fin y1)) oy) as Ky.
    pose proof (cube_axis_no_finite (sort2 (Fin z0, Fin z1)) oz) as Kz.
    destruct (cube_axis_hits (sort2 (Fin x0, Fin x1)) ox 0) as [a0 a1],
             (cube_axis_hits (sort2 (Fin y0, Fin y1)) oy 0) as [b0 b1],
             (cube_axis_hits (sort2 (Fin z0, Fin z1)) oz 0) as [c0 c1].
    destruct Kx, Ky, Kz. cbn [fst snd] in *.
    destruct (xltb _ _); [|split; auto].
    split; cbn [fst snd]; auto using xmax_no_finite, xmin_no_finite.
  - unfold plane_hits; cbn [origin direction vx vy vz]. rewrite isclose0_0.
    destruct (plane_axis_hits w ox 0), (plane_axis_hits l oy 0). destruct (_ && _)%bool; split; auto.
Qed.

Lemma mapply_0 : forall m, mapply m (V4 0 0 0 0) = V4 0 0 0 0.
Proof. intro m. unfold mapply, vdot; cbn [vx vy vz vw]. f_equal; ring. Qed.

Lemma shape_still : forall asort s r h, direction r = V4 0 0 0 0 ->
  match s with Leaf f _ => match s_prim f with PParaboloid _ _ => False | _ => True end | _ => True end ->
  In h (fst (shape_intersect asort s r)) -> xfinite h = false.
Proof.
  intros asort [f b|nid op b l r0] r h D X H.
  - cbn [shape_intersect fst] in H. rewrite surf_hits_alt in H.
    assert (K : no_finite (sort2 (prim_hits (s_prim f) (ray_map (s_obj f) r)))).
    { apply sort2_no_finite, prim_still; auto. unfold ray_map; cbn [direction]. rewrite D. apply mapply_0. }
    destruct K. destruct H as [<-|[<-|[]]]; auto.
  - cbn [shape_intersect] in H. rewrite box_hit_still in H by (rewrite D; reflexivity).
    apply repeat_spec in H. subst; auto.
Qed.

(** an absorbed ray inside a paraboloid gets a hit *)
Definition bowl : surf := at_origin 0 (PParaboloid 1 4).
Definition dead_ray : ray := Ray (point 0 0 1) (vector 0 0 0).
Lemma bowl_hit : surf_hits bowl dead_ray = [Fin 4; PInf].
Proof.
  rewrite surf_hits_alt. unfold bowl, dead_ray, at_origin; cbn [s_prim s_obj].
  unfold ray_map; cbn [origin direction]. rewrite !mapply_mid. unfold prim_hits, paraboloid_hits, parabola_hits, point, vector.
  cbn [origin direction vx vy vz].
  replace (0 * 0 + 0 * 0) with 0 by ring.
  replace (2 * 0 - 4 * 1 * 0) with 0 by ring. replace (0 - 4 * 1 * 1) with (-4) by ring.
  rewrite isclose0_0. unfold b2r. rewrite (xdiv_fin (- -4)) by lra.
  assert (rleb 0 0 = true) as -> by (apply rleb_true; lra).
  unfold z_clip. rewrite isclose0_0.
  assert (rleb 0 1 = true) as -> by (apply rleb_true; lra).
  assert (rleb 1 4 = true) as -> by (apply rleb_true; lra). simpl andb. cbv iota.
  assert (E : (- -4 / (0 + 1)) = 4) by field. rewrite E.
  destruct (rleb 0 (0 * 0 - 4 * 0 * -4)); reflexivity.
Qed.
