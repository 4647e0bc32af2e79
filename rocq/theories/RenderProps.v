(** * RenderProps: what the camera, the renderers and draw do *)
From Coq Require Import Reals List Bool ZArith Lra Lia Psatz.
Import ListNotations.
From Verif Require Import XR XRFacts Arr Lin LinFacts Prim Csg SpecCsg CsgProps Surf World Tracer Sources SpecGeom SpecTree TreeFacts SurfFacts SpecTrace TraceFacts3 SpecOptics Render SpecRender RenderFacts RenderFacts2 RenderFacts3.
Open Scope R_scope.

(** ** The camera *)
Lemma pixel_corners : forall w h c r, (2 <= c)%nat -> (2 <= r)%nat ->
  pixel_place w h c r 0 0 = V4 0 (w / 2) (h / 2) 1 /\
  pixel_place w h c r (r - 1) (c - 1) = V4 0 (- (w / 2)) (- (h / 2)) 1.
Proof.
  intros w h c r C R. unfold pixel_place. assert (INR (c - 1) <> 0) by (apply not_0_INR; lia). assert (INR (r - 1) <> 0) by (apply not_0_INR; lia).
  split; apply v4_eq; cbn [vx vy vz vw INR]; auto; try ring; field; auto.
Qed.
Lemma cam_rays_length : forall c rays, cam_rays c = Some rays -> length rays = (Z.to_nat (cam_v_pixels c) * cam_h_pixels c)%nat.
Proof.
  intros c rays E. unfold cam_rays in E. destruct (cam_v_pixels c <? 0)%Z; [discriminate|].
  apply collect_nth in E. destruct E as [E _]. rewrite E, map_length. apply cam_local_length.
Qed.
Lemma vnormalize_dir : forall m d, vnormalize (mapply m (V4 1 0 0 0)) = Some d ->
  vdot d d = 1 /\ exists k, 0 < k /\ d = vscale k (mapply m (V4 1 0 0 0)).
Proof.
  intros m d H. apply vnormalize_some in H. destruct H as (D & U & P). split; auto.
  exists (/ vnorm (mapply m (V4 1 0 0 0))). split; auto. apply Rinv_0_lt_compat. auto.
Qed.

Lemma ray_at_add : forall r t, vadd (origin r) (vscale t (direction r)) = ray_at r t.
Proof. intros. unfold ray_at, vadd, vscale. auto. Qed.

(** ** The hits of a pixel *)
Section Hits.
  Variable asort : list xr -> list nat.
  Hypothesis AS : argsort_ok asort.

  Theorem pixel_first_hit : forall shapes r, nothing_behind asort shapes r ->
    (render_hit asort shapes r = (PInf, (-1)%Z) /\ no_hit asort shapes r) \/
    (exists t sid, render_hit asort shapes r = (Fin t, sid) /\ first_hit asort shapes r t sid).
  Proof.
    intros shapes r NB. pose proof (propagate_first asort AS shapes (Col r 0 1 1 1 0)) as P. rewrite <- render_same in P by auto. exact P.
  Qed.

  Lemma within_behind : forall shapes r good, hits_within asort shapes r good ->
    (forall t, good (ray_at r t) -> t <= 0) -> all_behind asort shapes r.
  Proof. intros shapes r good W G s x S X. destruct (W s x S X) as [->|[->|(t & -> & T)]]; auto. right. right. exists t. auto. Qed.
  Lemma on_line_reports : forall shapes r t sid, 0 < t -> on_line asort shapes r t sid -> exists i k, reports asort shapes r i k t sid.
  Proof.
    intros shapes r t sid T (s & S & I). apply In_nth_error in S. destruct S as [i S]. apply In_nth_error in I. destruct I as [k K].
    exists i, k, s. split; auto.
    assert (G : forall A B (l : list A) (m : list B) k a b, nth_error (combine l m) k = Some (a, b) -> nth_error l k = Some a /\ nth_error m k = Some b).
    { induction l as [|a0 l IH]; intros [|b0 m] [|k0] a b E; simpl in *; try discriminate; [inversion E; auto|auto]. }
    apply G in K. destruct K. auto.
  Qed.
  Lemma reports_on_line : forall shapes r i k t sid, reports asort shapes r i k t sid -> on_line asort shapes r t sid.
  Proof.
    intros shapes r i k t sid (s & S & A & B & T). exists s. split; [eapply nth_error_In; eauto|].
    apply nth_error_In with (n := k). apply nth_error_combine; auto.
  Qed.
  Theorem ahead_first : forall shapes r good, hits_within asort shapes r good ->
    (forall t, good (ray_at r t) -> 0 < t) -> shows_first_on_line asort shapes r.
  Proof.
    intros shapes r good W G.
    assert (POS : forall t sid, on_line asort shapes r t sid -> 0 < t).
    { intros t sid (s & S & I). apply in_combine_l in I. destruct (W s _ S I) as [X|[X|(t' & X & T)]]; try discriminate. inversion X; subst. auto. }
    destruct (pixel_first_hit shapes r) as [(E & N)|(t & sid & E & i & k & R1 & R2)].
    - intros s S. destruct (existsb (fun x => match x with Fin _ => true | _ => false end) (fst (shape_intersect asort s r))) eqn:X.
      + apply existsb_exists in X. destruct X as ([t| | |] & I & X); try discriminate. left. exists t. split; auto.
        destruct (W s _ S I) as [Y|[Y|(t' & Y & T)]]; try discriminate. inversion Y; subst. auto.
      + right. intros x I. destruct (W s x S I) as [->|[->|(t & -> & T)]]; auto.
        assert (Y : existsb (fun x => match x with Fin _ => true | _ => false end) (fst (shape_intersect asort s r)) = true)
          by (apply existsb_exists; eauto). congruence.
    - left. split; auto. intros t sid O. destruct (on_line_reports _ _ _ _ (POS _ _ O) O) as (i & k & R). eapply N; eauto.
    - right. exists t, sid. split; auto. split; [eapply reports_on_line; eauto|].
      intros t' sid' O. destruct (on_line_reports _ _ _ _ (POS _ _ O) O) as (i' & k' & R). destruct (R2 _ _ _ _ R) as [?|[? _]]; lra.
  Qed.

  (** What whole parts answer lies in the parts. *)
  Theorem parts_within : forall shapes r, world_ray r ->
    (forall f, In f (parts shapes) -> surf_ok f /\ good_local (s_prim f) (ray_map (s_obj f) r)) ->
    hits_within asort shapes r (fun q => exists f, In f (parts shapes) /\ placed f q).
  Proof.
    intros shapes r W G s x S X. destruct (shape_columns asort AS s r) as (_ & L1 & L2).
    apply In_nth_error in X. destruct X as [k X].
    destruct (nth_error (snd (shape_intersect asort s r)) k) as [id|] eqn:I; [|apply nth_error_None in I; assert (k < length (fst (shape_intersect asort s r)))%nat by (apply nth_error_Some; congruence); lia].
    assert (C : In (x, id) (combine (fst (shape_intersect asort s r)) (snd (shape_intersect asort s r))))
      by (apply nth_error_In with (n := k); apply nth_error_combine; auto).
    destruct (shape_leaf asort AS s r x id C) as [->|(f & F & _ & H)]; auto.
    assert (FP : In f (parts shapes)) by (unfold parts; apply in_flat_map; eauto).
    destruct (G f FP) as [OK GL]. destruct (surf_chord f r OK W GL) as [(t0 & t1 & E & LE & P)|(E & _)]; rewrite E in H.
    - right. right. destruct H as [<-|[<-|[]]]; eexists; (split; [reflexivity|]); exists f; (split; [auto|]); apply P; lra.
    - destruct H as [<-|[<-|[]]]; auto.
  Qed.
  Lemma within_weaken : forall shapes r (P Q : v4 -> Prop), (forall q, P q -> Q q) -> hits_within asort shapes r P -> hits_within asort shapes r Q.
  Proof. intros shapes r P Q PQ W s x S X. destruct (W s x S X) as [?|[?|(t & ? & ?)]]; eauto 6. Qed.

  (** ** The edge image *)
  Theorem edge_image_borders : forall shapes c rays,
    cam_rays c = Some rays ->
    let rows := Z.to_nat (cam_v_pixels c) in
    let columns := cam_h_pixels c in
    let ids := map (fun r => snd (render_hit asort shapes r)) rays in
    (0 < rows)%nat -> (0 < columns)%nat ->
    exists img k, edge_image asort shapes c = Some img /\ length img = rows /\ line_width rows columns k /\
      forall i, (i < rows)%nat -> exists row, nth_error img i = Some row /\ length row = columns /\
      forall j, (j < columns)%nat ->
      (near_border k rows columns ids i j /\ nth_error row j = Some (RGBA 0 0 0 1)) \/
      (~ near_border k rows columns ids i j /\ nth_error row j = Some (RGBA 1 1 1 0)).
  Proof.
    intros shapes c rays E rows columns ids R C. unfold edge_image. rewrite E. fold rows columns.
    replace ((rows =? 0)%nat || (columns =? 0)%nat)%bool with false
      by (destruct (Nat.eqb_spec rows 0), (Nat.eqb_spec columns 0); auto; lia).
    fold ids. assert (L : length ids = (rows * columns)%nat) by (unfold ids; rewrite map_length; apply cam_rays_length; auto).
    destruct (edge_mask_size rows columns ids) as [S1 S2].
    eexists. exists (edge_iterations rows columns). split; [reflexivity|].
    split; [rewrite map_length; auto|]. split; [apply edge_iterations_width|].
    intros i I. destruct (nth_error (edge_mask rows columns ids) i) as [row|] eqn:N; [|apply nth_error_None in N; lia].
    assert (LR : length row = columns) by (apply S2; eapply nth_error_In; eauto).
    exists (map edge_pixel row). rewrite nth_error_map, N. split; auto. rewrite map_length. split; auto.
    intros j J. pose proof (edge_mask_border rows columns ids i j L I J) as B. unfold at2 in B. rewrite (nth_error_nth _ _ _ N) in B.
    destruct (nth_error row j) as [b|] eqn:NJ; [|apply nth_error_None in NJ; lia]. rewrite (nth_error_nth _ _ _ NJ) in B.
    rewrite nth_error_map, NJ. cbn [option_map]. destruct b; [left|right]; split; auto; [apply B; auto|].
    intros X. apply B in X. discriminate.
  Qed.

  (** ** The shaded image *)
  Lemma lut_in : forall shapes id s, In (id, s) (render_lut shapes) <-> In s (parts shapes) /\ s_id s = id.
  Proof.
    intros shapes id s. unfold render_lut, parts. rewrite !in_flat_map. split.
    - intros (x & X & Y). apply in_map_iff in Y. destruct Y as (f & F & Y). inversion F; subst. split; eauto.
    - intros ((x & X & Y) & <-). exists x. split; auto. apply in_map_iff. eauto.
  Qed.
  Theorem shaded_pixels : forall gooch_of light shapes c rays,
    cam_rays c = Some rays ->
    (forall s, In s (parts shapes) -> (0 <= s_id s)%Z) ->
    (forall s s', In s (parts shapes) -> In s' (parts shapes) -> s_id s = s_id s' -> s = s') ->
    let rows := Z.to_nat (cam_v_pixels c) in
    let columns := cam_h_pixels c in
    exists img, shaded_image asort gooch_of light shapes c = Some img /\ length img = rows /\
      forall i j, (i < rows)%nat -> (j < columns)%nat ->
      exists row r px, nth_error img i = Some row /\ length row = columns /\
        nth_error rays (i * columns + j) = Some r /\ nth_error row j = Some px /\
        (render_hit asort shapes r = (PInf, (-1)%Z) -> px = Some (RGBA 0 0 0 0)) /\
        (forall t s, In s (parts shapes) -> render_hit asort shapes r = (Fin t, s_id s) ->
           px = match world_normal s (ray_at r t) with
                | Some n => gooch_shade (gooch_of s) light (ray_at r t) n
                | None => None
                end).
  Proof.
    intros gooch_of light shapes c rays E POS UNIQ rows columns. unfold shaded_image. rewrite E. fold rows columns.
    set (f := fun r => shade_pixel gooch_of light (render_lut shapes) r (render_hit asort shapes r)).
    assert (L : length (map f rays) = (rows * columns)%nat) by (rewrite map_length; apply cam_rays_length; auto).
    eexists. split; [reflexivity|]. split; [apply rows_of_length|].
    intros i j I J. destruct (rows_of_nth _ rows columns (map f rays) i L I) as (row & R & LR & N).
    assert (K : (i * columns + j < length rays)%nat) by (rewrite map_length in L; nia).
    destruct (nth_error rays (i * columns + j)) as [r|] eqn:NR; [|apply nth_error_None in NR; lia].
    exists row, r, (f r). split; auto. split; auto. split; auto. split.
    { rewrite (N j J), nth_error_map, NR. auto. }
    unfold f, shade_pixel. split.
    - intros H. rewrite H. apply shade_pixel_none. intros [id s] X. cbn [fst snd]. apply lut_in in X. destruct X as [X <-].
      specialize (POS s X). lia.
    - intros t s S H. rewrite H. rewrite (shade_pixel_last gooch_of light (render_lut shapes) r (Fin t, s_id s) _ s); cbn [fst snd].
      + unfold surf_shade. rewrite ray_at_add. reflexivity.
      + apply lut_in. auto.
      + intros s' X. apply lut_in in X. destruct X as [X Y]. auto.
  Qed.
End Hits.

(** ** Shading *)
Theorem gooch_range : forall g light p n,
  displayable (g_base g) -> displayable (g_warm g) -> displayable (g_cool g) -> in_unit (g_alpha g) -> in_unit (g_beta g) ->
  vx n * vx n + vy n * vy n + vz n * vz n <= 1 ->
  (vx light, vy light, vz light) <> (vx p, vy p, vz p) ->
  exists px, gooch_shade g light p n = Some px /\ displayable px /\
    (opaque (g_base g) -> opaque (g_warm g) -> opaque (g_cool g) -> opaque px) /\
    let d := V4 (vx light - vx p) (vy light - vy p) (vz light - vz p) 0 in
    exists k, px = mixed k (mixed (g_alpha g) (g_base g) (g_warm g)) (mixed (g_beta g) (g_base g) (g_cool g)) /\
      (2 * k - 1) * vnorm d = vx d * vx n + vy d * vy n + vz d * vz n.
Proof.
  intros g light p n B W C A1 A2 N NE. destruct (light_mixture_some light p n NE) as [m M].
  destruct (gooch_mixture _ _ _ _ N M) as [U D]. unfold gooch_shade. rewrite M.
  exists (mixed m (mixed (g_alpha g) (g_base g) (g_warm g)) (mixed (g_beta g) (g_base g) (g_cool g))).
  split. { f_equal. rewrite <- shade_warm_mixed, <- shade_cool_mixed. unfold mixed, rgba_add, rgba_scale; cbn. auto. }
  split. { repeat apply mixed_displayable; auto. }
  split. { intros. repeat apply mixed_opaque; auto. }
  exists m. split; auto.
Qed.

(** ** draw *)
Lemma sin_90 : sin (90 * PI / 180) = 1.
Proof. replace (90 * PI / 180) with (PI / 2) by field. apply sin_PI2. Qed.
Lemma cos_90 : cos (90 * PI / 180) = 0.
Proof. replace (90 * PI / 180) with (PI / 2) by field. apply cos_PI2. Qed.
Lemma moved_xy : forall x y z, moved mid [RotY 90 Deg; RotZ 90 Deg; Move x y z] =
  Some (M4 (V4 0 (-1) 0 x) (V4 0 0 1 y) (V4 (-1) 0 0 z) (V4 0 0 0 1)).
Proof.
  intros. cbn [moved motion_matrix sin_cos]. rewrite sin_90, cos_90. rewrite mmul_mid_r. f_equal.
  vsimp; f_equal; f_equal; ring.
Qed.
Lemma moved_xz : forall x y z, moved mid [RotZ 90 Deg; Move x y z] =
  Some (M4 (V4 0 (-1) 0 x) (V4 1 0 0 y) (V4 0 0 1 z) (V4 0 0 0 1)).
Proof.
  intros. cbn [moved motion_matrix sin_cos]. rewrite sin_90, cos_90. rewrite mmul_mid_r. f_equal.
  vsimp; f_equal; f_equal; ring.
Qed.

Lemma cell_bounds : forall w n j, 0 <= w -> (j < n)%nat ->
  INR j * (w / INR n) <= INR j * (w / INR (n - 1)) <= INR (j + 1) * (w / INR n).
Proof.
  intros w n j W J. destruct (Nat.eq_dec n 1) as [->|N].
  - replace j with O by lia. cbn [Nat.sub Nat.add INR]. lra.
  - assert (P : 0 < INR n) by (apply lt_0_INR; lia). assert (Q : 0 < INR (n - 1)) by (apply lt_0_INR; lia).
    assert (E : INR (n - 1) = INR n - 1) by (rewrite minus_INR by lia; simpl; ring).
    assert (JJ : INR j <= INR n - 1) by (rewrite <- E; apply le_INR; lia).
    assert (J0 : 0 <= INR j) by apply pos_INR.
    rewrite plus_INR. cbn [INR].
    assert (X : w / INR (n - 1) - w / INR n = w / (INR n * INR (n - 1))) by (rewrite E; field; lra).
    assert (Y : 0 <= w / (INR n * INR (n - 1))).
    { unfold Rdiv. apply Rmult_le_pos; auto. left. apply Rinv_0_lt_compat. apply Rmult_lt_0_compat; auto. }
    split; [apply Rmult_le_compat_l; lra|].
    assert (Z : w / INR n = (INR n - 1) * (w / (INR n * INR (n - 1)))) by (rewrite E; field; lra).
    set (q := w / (INR n * INR (n - 1))) in *.
    replace (w / INR (n - 1)) with (w / INR n + q) by lra. nra.
Qed.

Lemma draw_rows_nonneg : forall c, 0 <= cam_aspect c -> (0 <= cam_v_pixels c)%Z.
Proof. intros c A. apply int_trunc_nonneg. apply Rmult_le_pos; auto. apply pos_INR. Qed.

Theorem draw_xy_pixels : forall n maxes mins, cx mins < cx maxes -> cy mins < cy maxes ->
  exists v rays, draw_xy n maxes mins = Some v /\ cam_rays (v_camera v) = Some rays /\
  let rows := Z.to_nat (cam_v_pixels (v_camera v)) in
  let columns := cam_h_pixels (v_camera v) in
  length rays = (rows * columns)%nat /\
  forall i j, (i < rows)%nat -> (j < columns)%nat ->
  exists x y, nth_error rays (i * columns + j) = Some (Ray (V4 x y (3 / 2 * cz maxes) 1) (V4 0 0 (-1) 0)) /\
    in_pixel_cell (v_extent v) rows columns i j x y.
Proof.
  intros n [ax ay az] [bx by_ bz] HX HY. cbn [cx cy cz] in *. unfold draw_xy; cbn [cx cy cz].
  set (h := 15 / 10 * (ax - bx)). set (vv := 15 / 10 * (ay - by_)).
  assert (H : 0 < h) by (unfold h; lra). assert (V : 0 < vv) by (unfold vv; lra). clearbody h vv.
  replace (reqb h 0) with false by (symmetry; apply reqb_false; lra). replace (reqb vv 0) with false by (symmetry; apply reqb_false; lra).
  cbn [orb]. rewrite moved_xy.
  set (c := Camera (Z.to_nat (draw_resolution n h vv)) h (vv / h) _).
  assert (RN : (0 <= cam_v_pixels c)%Z) by (apply draw_rows_nonneg; cbn; unfold Rdiv; apply Rmult_le_pos; [lra|]; left; apply Rinv_0_lt_compat; auto).
  destruct (camera_grid c (V4 0 0 (-1) 0) RN) as (rays & E & L & N).
  { assert (D : mapply (cam_world c) (V4 1 0 0 0) = V4 0 0 (-1) 0).
    { unfold c, mapply, vdot; cbn. apply v4_eq; cbn; ring. }
    rewrite D. apply vnormalize_unit. unfold vdot; cbn; ring. }
  eexists. exists rays. split; [reflexivity|]. cbn [v_camera]. split; auto. cbv zeta. split; auto.
  intros i j I J.
  exists ((ax + bx) / 2 - (h / 2 - INR j * (h / INR (cam_h_pixels c - 1)))), ((ay + by_) / 2 + (vv / 2 - INR i * (vv / INR (Z.to_nat (cam_v_pixels c) - 1)))).
  split.
  - rewrite (N i j I J). do 2 f_equal. unfold pixel_place. cbn [cam_h_width cam_aspect c].
    replace (vv / h * h) with vv by (field; lra). unfold mapply, vdot. cbn [cam_world c row0 row1 row2 row3 vx vy vz vw].
    apply v4_eq; cbn [vx vy vz vw]; try ring. unfold Rdiv; lra.
  - unfold in_pixel_cell. cbn [v_extent].
    replace ((ax + bx) / 2 + h / 2 - ((ax + bx) / 2 - h / 2)) with h by field.
    replace ((ay + by_) / 2 + vv / 2 - ((ay + by_) / 2 - vv / 2)) with vv by field.
    pose proof (cell_bounds h _ _ (Rlt_le _ _ H) J). pose proof (cell_bounds vv _ _ (Rlt_le _ _ V) I).
    lra.
Qed.
Theorem draw_xz_pixels : forall n maxes mins, cx mins < cx maxes -> cz mins < cz maxes ->
  exists v rays, draw_xz n maxes mins = Some v /\ cam_rays (v_camera v) = Some rays /\
  let rows := Z.to_nat (cam_v_pixels (v_camera v)) in
  let columns := cam_h_pixels (v_camera v) in
  length rays = (rows * columns)%nat /\
  forall i j, (i < rows)%nat -> (j < columns)%nat ->
  exists x z, nth_error rays (i * columns + j) = Some (Ray (V4 x (3 / 2 * cy maxes) z 1) (V4 0 1 0 0)) /\
    in_pixel_cell (v_extent v) rows columns i j x z.
Proof.
  intros n [ax ay az] [bx by_ bz] HX HY. cbn [cx cy cz] in *. unfold draw_xz; cbn [cx cy cz].
  set (h := 15 / 10 * (ax - bx)). set (vv := 15 / 10 * (az - bz)).
  assert (H : 0 < h) by (unfold h; lra). assert (V : 0 < vv) by (unfold vv; lra). clearbody h vv.
  replace (reqb h 0) with false by (symmetry; apply reqb_false; lra). replace (reqb vv 0) with false by (symmetry; apply reqb_false; lra).
  cbn [orb]. rewrite moved_xz.
  set (c := Camera (Z.to_nat (draw_resolution n h vv)) h (vv / h) _).
  assert (RN : (0 <= cam_v_pixels c)%Z) by (apply draw_rows_nonneg; cbn; unfold Rdiv; apply Rmult_le_pos; [lra|]; left; apply Rinv_0_lt_compat; auto).
  destruct (camera_grid c (V4 0 1 0 0) RN) as (rays & E & L & N).
  { assert (D : mapply (cam_world c) (V4 1 0 0 0) = V4 0 1 0 0).
    { unfold c, mapply, vdot; cbn. apply v4_eq; cbn; ring. }
    rewrite D. apply vnormalize_unit. unfold vdot; cbn; ring. }
  eexists. exists rays. split; [reflexivity|]. cbn [v_camera]. split; auto. cbv zeta. split; auto.
  intros i j I J.
  exists ((ax + bx) / 2 - (h / 2 - INR j * (h / INR (cam_h_pixels c - 1)))), ((az + bz) / 2 + (vv / 2 - INR i * (vv / INR (Z.to_nat (cam_v_pixels c) - 1)))).
  split.
  - rewrite (N i j I J). do 2 f_equal. unfold pixel_place. cbn [cam_h_width cam_aspect c].
    replace (vv / h * h) with vv by (field; lra). unfold mapply, vdot. cbn [cam_world c row0 row1 row2 row3 vx vy vz vw].
    apply v4_eq; cbn [vx vy vz vw]; try ring. unfold Rdiv; lra.
  - unfold in_pixel_cell. cbn [v_extent].
    replace ((ax + bx) / 2 + h / 2 - ((ax + bx) / 2 - h / 2)) with h by field.
    replace ((az + bz) / 2 + vv / 2 - ((az + bz) / 2 - vv / 2)) with vv by field.
    pose proof (cell_bounds h _ _ (Rlt_le _ _ H) J). pose proof (cell_bounds vv _ _ (Rlt_le _ _ V) I).
    lra.
Qed.

(** The xy picture is seen from above when the scene reaches above z = 0. *)
Theorem draw_xy_top : forall asort, argsort_ok asort -> forall shapes x y top, 0 < top ->
  let r := Ray (V4 x y (3 / 2 * top) 1) (V4 0 0 (-1) 0) in
  hits_within asort shapes r (fun p => vz p <= top) -> shows_first_on_line asort shapes r.
Proof.
  intros asort AS shapes x y top T r W. eapply ahead_first; eauto. intros t G. unfold ray_at in G. cbn in G. lra.
Qed.
Theorem draw_xz_first : forall asort, argsort_ok asort -> forall shapes x z top, 0 < top ->
  let r := Ray (V4 x (3 / 2 * top) z 1) (V4 0 1 0 0) in
  hits_within asort shapes r (fun p => vy p <= top) -> shows_first_on_line asort shapes r.
Proof.
  intros asort AS shapes x z top T r W. apply render_lowest; auto. eapply within_behind; eauto. intros t G. unfold ray_at in G. cbn in G. lra.
Qed.
