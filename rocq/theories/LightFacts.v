(** * LightFacts: how drawings are lit *)
From Coq Require Import Reals List Bool ZArith Lra Lia.
Import ListNotations.
From Verif Require Import XR XRFacts Arr Lin LinFacts Prim Csg CsgProps Surf SpecGeom SpecTree TreeFacts UnionFacts TreeExamples TreeProps World SpecWorld WorldExamples Tracer SpecTrace TraceExamples
  Sources Render SpecRender RenderProps Utils SpecUtils Show Renderers SpecShow ShowFacts ShowProps ShowProps2 ShowProps3 RendererProps RendererExamples RenderExamples CrossingExamples SurfFacts SpecLight.
Open Scope R_scope.

Lemma shade_mixed : forall g m, rgba_add (rgba_scale m (shade_warm g)) (rgba_scale (1 - m) (shade_cool g)) = mixed m (warm_tone g) (cool_tone g).
Proof.
  intros [[] [] [] al be] m. unfold mixed, warm_tone, cool_tone, shade_warm, shade_cool, rgba_add, rgba_scale, mixed; cbn. f_equal; ring.
Qed.
Lemma facing_mix : forall g light p v, v = XY \/ v = XZ -> (vx light, vy light, vz light) <> (vx p, vy p, vz p) ->
  exists k, gooch_shade g light p (to_viewer v) = Some (mixed k (warm_tone g) (cool_tone g)) /\
    (1 / 2 < k <-> match v with XZ => vy light < vy p | _ => vz p < vz light end).
Proof.
  intros g light p v V NE. unfold gooch_shade, light_mixture. set (x := vx light - vx p). set (y := vy light - vy p). set (z := vz light - vz p).
  assert (Q : vdot (V4 x y z 0) (V4 x y z 0) = x * x + y * y + z * z) by (unfold vdot; cbn; ring).
  assert (P : 0 < x * x + y * y + z * z).
  { destruct (Req_dec x 0) as [X|X]; [|nra]. destruct (Req_dec y 0) as [Y|Y]; [|nra]. destruct (Req_dec z 0) as [Z|Z]; [|nra]. exfalso. apply NE. unfold x, y, z in *.
    replace (vx light) with (vx p) by lra. replace (vy light) with (vy p) by lra. replace (vz light) with (vz p) by lra. reflexivity. }
  unfold vnormalize. destruct (Req_EM_T (vdot (V4 x y z 0) (V4 x y z 0)) 0) as [E|_]; [lra|]. unfold vnorm. rewrite Q.
  set (N := sqrt (x * x + y * y + z * z)). assert (NP : 0 < N) by (apply sqrt_lt_R0; auto).
  assert (IP : 0 < / N) by (apply Rinv_0_lt_compat; auto). clearbody N.
  rewrite shade_mixed. eexists. split; [reflexivity|]. unfold vscale; cbn [vx vy vz vw].
  destruct V as [-> | ->]; cbn [to_viewer vx vy vz].
  - assert (S : 0 < z <-> vz p < vz light) by (unfold z; split; lra). rewrite <- S. clearbody x y z. split; intro H; nra.
  - assert (S : y < 0 <-> vy light < vy p) by (unfold y; split; lra). rewrite <- S. clearbody x y z. split; intro H; nra.
Qed.

Lemma square_pixels : forall n h v c, 0 < h -> h = v ->
  (exists m, c = Camera (Z.to_nat (draw_resolution n h v)) h (v / h) m) -> Z.to_nat (cam_v_pixels c) = n /\ cam_h_pixels c = n.
Proof.
  intros n h v c H <- (m & ->). unfold cam_v_pixels. cbn [cam_aspect cam_h_pixels].
  assert (D : draw_resolution n h h = Z.of_nat n).
  { unfold draw_resolution. replace (rltb h h) with false by (symmetry; apply rltb_false; lra). replace (INR n * h / h) with (INR n) by (field; lra). apply int_trunc_INR. }
  rewrite D, Nat2Z.id. replace (h / h * INR n) with (INR n) by (field; lra). rewrite int_trunc_INR, Nat2Z.id. auto.
Qed.
Lemma lit_drawing : forall asort gooch_of shapes v bounds n image extent mins maxes, v = XY \/ v = XZ ->
  pictured shapes bounds mins maxes -> draw asort gooch_of shapes v true bounds n = Drawn image extent ->
  (forall s, In s (parts shapes) -> (0 <= s_id s)%Z) ->
  (forall s s', In s (parts shapes) -> In s' (parts shapes) -> s_id s = s_id s' -> s = s') ->
  exists rows columns, length image = rows /\ (fst (sides v mins maxes) = snd (sides v mins maxes) -> rows = n /\ columns = n) /\ forall i j, (i < rows)%nat -> (j < columns)%nat ->
  exists row px r, nth_error image i = Some row /\ length row = columns /\ nth_error row j = Some px /\
    in_pixel_cell extent rows columns i j (fst (projected v (origin r))) (snd (projected v (origin r))) /\ direction r = vopp (to_viewer v) /\
    vw (origin r) = 1 /\ match v with XZ => vy (origin r) = 3 / 2 * cy maxes | _ => vz (origin r) = 3 / 2 * cz maxes end /\
    forall t s, In s (parts shapes) -> render_hit asort shapes r = (Fin t, s_id s) -> world_normal s (ray_at r t) = Some (to_viewer v) ->
      ~ at_the_light v maxes (ray_at r t) ->
      exists k, px = Some (mixed k (warm_tone (gooch_of s)) (cool_tone (gooch_of s))) /\ (1 / 2 < k <-> behind_the_light v maxes (ray_at r t)).
Proof.
  intros asort gooch_of shapes v bounds n image extent mins maxes V PI D POS UNI.
  assert (C : match bounds with Some b => Some b | None => scene_corners shapes end = Some (mins, maxes)).
  { destruct bounds as [[lo hi]|]; cbn in PI; [destruct PI as (-> & ->); auto|apply around_corners; auto]. }
  unfold draw in D. destruct shapes as [|s0 ss]; [discriminate|]. set (shapes := s0 :: ss) in *. cbv zeta in D. rewrite C in D.
  destruct V as [-> | ->].
  - destruct (rltb (cx mins) (cx maxes)) eqn:X; [|discriminate]. destruct (rltb (cy mins) (cy maxes)) eqn:Y; [|discriminate]. cbn [andb] in D.
    apply XRFacts.rltb_true in X. apply XRFacts.rltb_true in Y.
    destruct (draw_xy_pixels n maxes mins X Y) as (w & rays & DW & RA & _ & PX). rewrite DW in D. unfold draw_view in D.
    destruct (shaded_pixels asort gooch_of (v_light w) shapes (v_camera w) rays RA POS UNI) as (img & SI & LI & SP). rewrite SI in D. injection D as <- <-.
    exists (Z.to_nat (cam_v_pixels (v_camera w))), (cam_h_pixels (v_camera w)).
    split; [exact LI|]. split.
    { cbn [sides fst snd]. intro SQ. apply (square_pixels n (15 / 10 * (cx maxes - cx mins)) (15 / 10 * (cy maxes - cy mins)) (v_camera w)); [lra|lra|].
      unfold draw_xy in DW. cbv zeta in DW. rewrite !(proj2 (reqb_false _ _)) in DW by lra. cbn [orb] in DW. rewrite moved_xy in DW. injection DW as <-. cbn [v_camera]. eauto. }
    intros i j I J.
    destruct (SP i j I J) as (row & r & px & NR & LR & RR & NP & _ & SH). destruct (PX i j I J) as (x & y & RR' & CELL). rewrite RR in RR'. injection RR' as ->.
    exists row, px, (Ray (V4 x y (3 / 2 * cz maxes) 1) (V4 0 0 (-1) 0)). split; [auto|]. split; [auto|]. split; [auto|]. split; [exact CELL|].
    split; [cbn [direction to_viewer]; unfold vopp, vscale; cbn [vx vy vz vw]; f_equal; ring|]. split; [reflexivity|]. split; [reflexivity|].
    intros t s IN H NO NL. rewrite (SH t s IN H), NO.
    assert (LG : v_light w = V4 (cx maxes) (cy maxes) (cz maxes * 3) 1).
    { unfold draw_xy in DW. cbv zeta in DW. rewrite !(proj2 (reqb_false _ _)) in DW by lra. cbn [orb] in DW. rewrite moved_xy in DW. injection DW as <-. reflexivity. }
    rewrite LG. set (p := ray_at _ t) in *.
    destruct (facing_mix (gooch_of s) (V4 (cx maxes) (cy maxes) (cz maxes * 3) 1) p XY ltac:(auto)) as (k & E & K).
    { cbn [vx vy vz]. intro Q. apply NL. unfold at_the_light. rewrite <- Q. f_equal. ring. }
    exists k. split; [exact E|]. rewrite K. unfold behind_the_light. cbn [vz]. split; lra.
  - destruct (rltb (cx mins) (cx maxes)) eqn:X; [|discriminate]. destruct (rltb (cz mins) (cz maxes)) eqn:Y; [|discriminate]. cbn [andb] in D.
    apply XRFacts.rltb_true in X. apply XRFacts.rltb_true in Y.
    destruct (draw_xz_pixels n maxes mins X Y) as (w & rays & DW & RA & _ & PX). rewrite DW in D. unfold draw_view in D.
    destruct (shaded_pixels asort gooch_of (v_light w) shapes (v_camera w) rays RA POS UNI) as (img & SI & LI & SP). rewrite SI in D. injection D as <- <-.
    exists (Z.to_nat (cam_v_pixels (v_camera w))), (cam_h_pixels (v_camera w)).
    split; [exact LI|]. split.
    { cbn [sides fst snd]. intro SQ. apply (square_pixels n (15 / 10 * (cx maxes - cx mins)) (15 / 10 * (cz maxes - cz mins)) (v_camera w)); [lra|lra|].
      unfold draw_xz in DW. cbv zeta in DW. rewrite !(proj2 (reqb_false _ _)) in DW by lra. cbn [orb] in DW. rewrite moved_xz in DW. injection DW as <-. cbn [v_camera]. eauto. }
    intros i j I J.
    destruct (SP i j I J) as (row & r & px & NR & LR & RR & NP & _ & SH). destruct (PX i j I J) as (x & y & RR' & CELL). rewrite RR in RR'. injection RR' as ->.
    exists row, px, (Ray (V4 x (3 / 2 * cy maxes) y 1) (V4 0 1 0 0)). split; [auto|]. split; [auto|]. split; [auto|]. split; [exact CELL|].
    split; [cbn [direction to_viewer]; unfold vopp, vscale; cbn [vx vy vz vw]; f_equal; ring|]. split; [reflexivity|]. split; [reflexivity|].
    intros t s IN H NO NL. rewrite (SH t s IN H), NO.
    assert (LG : v_light w = V4 (cx maxes) (cy maxes * -3) (cz maxes) 1).
    { unfold draw_xz in DW. cbv zeta in DW. rewrite !(proj2 (reqb_false _ _)) in DW by lra. cbn [orb] in DW. rewrite moved_xz in DW. injection DW as <-. reflexivity. }
    rewrite LG. set (p := ray_at _ t) in *.
    destruct (facing_mix (gooch_of s) (V4 (cx maxes) (cy maxes * -3) (cz maxes) 1) p XZ ltac:(auto)) as (k & E & K).
    { cbn [vx vy vz]. intro Q. apply NL. unfold at_the_light. rewrite <- Q. do 2 f_equal. ring. }
    exists k. split; [exact E|]. rewrite K. unfold behind_the_light. cbn [vy]. split; lra.
Qed.

(** ** Blocks *)
Definition block_xy (a b : R) : surf := at_origin 1 (PCube (0, 0, a) (2, 2, b)).
Definition block_xz (a b : R) : surf := at_origin 1 (PCube (0, a, 0) (2, b, 2)).
Lemma block_seen : forall x0 y0 z0 x1 y1 z1 r lo hi k asort, let g := at_origin 1 (PCube (x0, y0, z0) (x1, y1, z1)) in
  x0 < x1 -> y0 < y1 -> z0 < z1 -> world_ray r -> clear (vx (direction r)) -> clear (vy (direction r)) -> clear (vz (direction r)) -> lo < hi ->
  (forall t, (x0 <= vx (ray_at r t) <= x1 /\ y0 <= vy (ray_at r t) <= y1 /\ z0 <= vz (ray_at r t) <= z1) <-> lo <= t <= hi) ->
  (0 < lo /\ k = lo \/ hi <= 0 /\ k = lo) -> render_hit asort [leaf_of g] r = (Fin k, s_id g).
Proof.
  intros x0 y0 z0 x1 y1 z1 r lo hi k asort g X Y Z W CX CY CZ LH IN K.
  assert (VW : forall t, vw (ray_at r t) = 1).
  { intro t. destruct W as (W1 & W2 & _). unfold ray_at, vadd, vscale; cbn [vw]. rewrite W1, W2. ring. }
  assert (H : surf_hits g r = [Fin lo; Fin hi]).
  { apply chord_is; auto.
    - apply at_origin_ok. exact Logic.I.
    - split; [|exact Logic.I]. cbn [g at_origin s_obj s_prim clear_ray]. unfold ray_map. cbn [direction]. rewrite !mapply_mid. auto.
    - intro t. rewrite <- IN. unfold placed, g. cbn [at_origin s_world s_prim]. split.
      + intros (q & _ & SQ & E). rewrite mapply_mid in E. rewrite <- E. cbn [solid] in SQ. unfold between in SQ. rewrite !Rmin_left, !Rmax_right in SQ by lra. tauto.
      + intro Q. exists (ray_at r t). split; [apply VW|]. split; [|apply mapply_mid]. cbn [solid]. unfold between. rewrite !Rmin_left, !Rmax_right by lra. tauto. }
  unfold render_hit. cbn [fold_left]. unfold render_shape, leaf_of. cbn [shape_intersect]. rewrite H. cbn [map]. unfold positive_or_inf. cbn [xltb].
  destruct K as [(K & ->)|(K & ->)].
  - replace (rltb 0 lo) with true by (symmetry; apply rltb_true; lra). replace (rltb 0 hi) with true by (symmetry; apply rltb_true; lra).
    cbn [argmin argmin_from xltb]. replace (rltb hi lo) with false by (symmetry; apply rltb_false; lra). reflexivity.
  - replace (rltb 0 lo) with false by (symmetry; apply rltb_false; lra). replace (rltb 0 hi) with false by (symmetry; apply rltb_false; lra). reflexivity.
Qed.
Lemma axis_middle : forall v, 1 / 2 <= v <= 3 / 2 -> cube_normal_axis 0 2 v = 0.
Proof.
  intros v V. unfold cube_normal_axis. assert (IC : forall b, b = 0 \/ b = 2 -> isclose v b = false).
  { intros b B. unfold isclose. apply Bool.not_true_iff_false. rewrite rleb_true. unfold atol, rtol. intro J. destruct B as [-> | ->]; revert J; unfold Rabs; repeat destruct Rcase_abs; lra. }
  rewrite !IC by auto. reflexivity.
Qed.
Lemma isclose_same : forall v, isclose v v = true.
Proof. intro v. unfold isclose. apply rleb_true. rewrite Rminus_diag_eq by reflexivity. rewrite Rabs_R0. unfold atol, rtol. pose proof (Rabs_pos v). lra. Qed.
Lemma axis_top : forall a b, cube_normal_axis a b b = 1.
Proof. intros. unfold cube_normal_axis. rewrite isclose_same. reflexivity. Qed.
Lemma axis_bottom : forall a b, isclose a b = false -> cube_normal_axis a b a = -1.
Proof. intros a b H. unfold cube_normal_axis. rewrite H, isclose_same. reflexivity. Qed.
Lemma unit_normalize : forall v, vdot v v = 1 -> vnormalize v = Some v.
Proof. intros v V. unfold vnormalize. destruct (Req_EM_T (vdot v v) 0) as [Q|_]; [lra|]. unfold vnorm. rewrite V, sqrt_1, Rinv_1. f_equal. destruct v; unfold vscale; cbn. f_equal; ring. Qed.
Lemma block_world_normal : forall x0 y0 z0 x1 y1 z1 q n, let g := at_origin 1 (PCube (x0, y0, z0) (x1, y1, z1)) in x0 < x1 -> y0 < y1 -> z0 < z1 ->
  n = V4 (cube_normal_axis x0 x1 (vx q)) (cube_normal_axis y0 y1 (vy q)) (cube_normal_axis z0 z1 (vz q)) 0 -> vdot n n = 1 -> world_normal g q = Some n.
Proof.
  intros x0 y0 z0 x1 y1 z1 q n g X Y Z E U. unfold world_normal, g. cbn [at_origin s_prim s_obj s_nscale]. rewrite mapply_mid. cbn [prim_normal]. unfold cube_normal.
  rewrite !Rmin_left, !Rmax_right by lra. rewrite <- E, unit_normalize by auto.
  assert (E2 : vset_w (mapply (mtrans mid) n) 0 = n) by (rewrite E; unfold mapply, mtrans, mid, vset_w, vdot; cbn; f_equal; ring).
  rewrite E2, unit_normalize by auto. f_equal. destruct n as [n1 n2 n3 n4]. unfold vscale; cbn. f_equal; ring.
Qed.

Lemma lit_block_xy : forall asort gooch_of a b, a < b -> (0 < b \/ 3 / 2 * b < a) -> exists image extent row px k,
  draw asort gooch_of [leaf_of (block_xy a b)] XY true None 3 = Drawn image extent /\ nth_error image 1 = Some row /\ nth_error row 1 = Some (Some px) /\
  px = mixed k (warm_tone (gooch_of (block_xy a b))) (cool_tone (gooch_of (block_xy a b))) /\ (1 / 2 < k <-> 0 < b).
Proof.
  intros asort gooch_of a b AB CAM.
  assert (AR : around [leaf_of (block_xy a b)] (Corner 0 0 a) (Corner 2 2 b)).
  { apply around_one; cbn [cx cy cz]; try lra. unfold box_between, leaf_of, block_xy. cbn [shape_box at_origin s_prim s_world]. rewrite (surf_box_mid _ 0 0 a 2 2 b) by reflexivity.
    rewrite !Rmin_left, !Rmax_right by lra. cbn. auto. }
  destruct (draw_ok asort gooch_of [leaf_of (block_xy a b)] XY true None 3 (Corner 0 0 a) (Corner 2 2 b)) as (image & D); auto; [discriminate| |].
  { unfold showable. cbn [sides fst snd cx cy cz]. simpl INR. lra. }
  destruct (lit_drawing asort gooch_of _ XY None 3 image _ _ _ ltac:(auto) AR D) as (rows & columns & LI & SQ & PX).
  { intros s [<- | []]. cbn. lia. }
  { intros s s' [<- | []] [<- | []] _. reflexivity. }
  destruct (SQ ltac:(cbn; ring)) as (-> & ->). destruct (PX 1%nat 1%nat ltac:(lia) ltac:(lia)) as (row & px & r & NR & _ & NP & CELL & DR & WO & HO & SH).
  destruct r as [[x y h w] d]. cbn [origin direction vw vz cz] in *. subst d w h. unfold in_pixel_cell, extent_of, projected in CELL. cbn [sides fst snd cx cy vx vy] in CELL.
  replace (INR (1 + 1)) with 2 in CELL by (simpl; ring). replace (INR 1) with 1 in CELL by reflexivity. replace (INR 3) with 3 in CELL by (simpl; ring).
  assert (XX : 1 / 2 <= x <= 3 / 2) by lra. assert (YY : 1 / 2 <= y <= 3 / 2) by lra.
  set (r := Ray (V4 x y (3 / 2 * b) 1) (vopp (to_viewer XY))) in *.
  assert (DV : vopp (to_viewer XY) = V4 0 0 (-1) 0) by (unfold vopp, vscale; cbn [to_viewer vx vy vz vw]; f_equal; ring).
  assert (AT : forall t, ray_at r t = V4 x y (3 / 2 * b - t) 1) by (intro t; unfold r, ray_at; cbn [origin direction]; rewrite DV; unfold vadd, vscale; cbn [vx vy vz vw]; f_equal; ring).
  assert (H : render_hit asort [leaf_of (block_xy a b)] r = (Fin (b / 2), s_id (block_xy a b))).
  { apply (block_seen 0 0 a 2 2 b r (b / 2) (3 / 2 * b - a)); try lra.
    - unfold r. rewrite DV. split; [reflexivity|]. split; [reflexivity|]. unfold moving. cbn. lra.
    - unfold r. rewrite DV. left. reflexivity.
    - unfold r. rewrite DV. left. reflexivity.
    - unfold r. rewrite DV. right. cbn [direction vz]. unfold atol, Rabs. destruct Rcase_abs; lra.
    - intro t. rewrite AT. cbn [vx vy vz]. split; intro; lra. }
  destruct (SH (b / 2) (block_xy a b)) as (k & E & K); auto.
  { left; reflexivity. }
  { rewrite AT. apply (block_world_normal 0 0 a 2 2 b); try lra; cbn [vx vy vz to_viewer].
    - replace (3 / 2 * b - b / 2) with b by field. rewrite !axis_middle, axis_top by auto. reflexivity.
    - unfold vdot; cbn; ring. }
  { rewrite AT. unfold at_the_light. cbn [vx vy vz cx cy cz]. intro Q. injection Q as Q1 Q2 Q3. lra. }
  exists image, (extent_of XY (Corner 0 0 a) (Corner 2 2 b)), row, (mixed k (warm_tone (gooch_of (block_xy a b))) (cool_tone (gooch_of (block_xy a b)))), k.
  split; [exact D|]. split; [exact NR|]. split; [rewrite <- E; exact NP|]. split; [reflexivity|]. rewrite K, AT. unfold behind_the_light. cbn [vz cz]. split; lra.
Qed.
Lemma lit_block_xz : forall asort gooch_of a b, a < b -> 0 < b -> isclose a b = false -> exists image extent row px k,
  draw asort gooch_of [leaf_of (block_xz a b)] XZ true None 3 = Drawn image extent /\ nth_error image 1 = Some row /\ nth_error row 1 = Some (Some px) /\
  px = mixed k (warm_tone (gooch_of (block_xz a b))) (cool_tone (gooch_of (block_xz a b))) /\ (1 / 2 < k <-> - 3 * b < a).
Proof.
  intros asort gooch_of a b AB CAM IC.
  assert (AR : around [leaf_of (block_xz a b)] (Corner 0 a 0) (Corner 2 b 2)).
  { apply around_one; cbn [cx cy cz]; try lra. unfold box_between, leaf_of, block_xz. cbn [shape_box at_origin s_prim s_world]. rewrite (surf_box_mid _ 0 a 0 2 b 2) by reflexivity.
    rewrite !Rmin_left, !Rmax_right by lra. cbn. auto. }
  destruct (draw_ok asort gooch_of [leaf_of (block_xz a b)] XZ true None 3 (Corner 0 a 0) (Corner 2 b 2)) as (image & D); auto; [discriminate| |].
  { unfold showable. cbn [sides fst snd cx cy cz]. simpl INR. lra. }
  destruct (lit_drawing asort gooch_of _ XZ None 3 image _ _ _ ltac:(auto) AR D) as (rows & columns & LI & SQ & PX).
  { intros s [<- | []]. cbn. lia. }
  { intros s s' [<- | []] [<- | []] _. reflexivity. }
  destruct (SQ ltac:(cbn; ring)) as (-> & ->). destruct (PX 1%nat 1%nat ltac:(lia) ltac:(lia)) as (row & px & r & NR & _ & NP & CELL & DR & WO & HO & SH).
  destruct r as [[x h z w] d]. cbn [origin direction vw vy cy] in *. subst d w h. unfold in_pixel_cell, extent_of, projected in CELL. cbn [sides fst snd cx cz vx vz] in CELL.
  replace (INR (1 + 1)) with 2 in CELL by (simpl; ring). replace (INR 1) with 1 in CELL by reflexivity. replace (INR 3) with 3 in CELL by (simpl; ring).
  assert (XX : 1 / 2 <= x <= 3 / 2) by lra. assert (ZZ : 1 / 2 <= z <= 3 / 2) by lra.
  set (r := Ray (V4 x (3 / 2 * b) z 1) (vopp (to_viewer XZ))) in *.
  assert (DV : vopp (to_viewer XZ) = V4 0 1 0 0) by (unfold vopp, vscale; cbn [to_viewer vx vy vz vw]; f_equal; ring).
  assert (AT : forall t, ray_at r t = V4 x (3 / 2 * b + t) z 1) by (intro t; unfold r, ray_at; cbn [origin direction]; rewrite DV; unfold vadd, vscale; cbn [vx vy vz vw]; f_equal; ring).
  assert (H : render_hit asort [leaf_of (block_xz a b)] r = (Fin (a - 3 / 2 * b), s_id (block_xz a b))).
  { apply (block_seen 0 a 0 2 b 2 r (a - 3 / 2 * b) (- (b / 2))); try lra.
    - unfold r. rewrite DV. split; [reflexivity|]. split; [reflexivity|]. unfold moving. cbn. lra.
    - unfold r. rewrite DV. left. reflexivity.
    - unfold r. rewrite DV. right. cbn [direction vy]. unfold atol, Rabs. destruct Rcase_abs; lra.
    - unfold r. rewrite DV. left. reflexivity.
    - intro t. rewrite AT. cbn [vx vy vz]. split; intro; lra. }
  destruct (SH (a - 3 / 2 * b) (block_xz a b)) as (k & E & K); auto.
  { left; reflexivity. }
  { rewrite AT. apply (block_world_normal 0 a 0 2 b 2); try lra; cbn [vx vy vz to_viewer].
    - replace (3 / 2 * b + (a - 3 / 2 * b)) with a by field. rewrite !axis_middle, axis_bottom by auto. reflexivity.
    - unfold vdot; cbn; ring. }
  { rewrite AT. unfold at_the_light. cbn [vx vy vz cx cy cz]. intro Q. injection Q as Q1 Q2 Q3. lra. }
  exists image, (extent_of XZ (Corner 0 a 0) (Corner 2 b 2)), row, (mixed k (warm_tone (gooch_of (block_xz a b))) (cool_tone (gooch_of (block_xz a b)))), k.
  split; [exact D|]. split; [exact NR|]. split; [rewrite <- E; exact NP|]. split; [reflexivity|]. rewrite K, AT. unfold behind_the_light. cbn [vy cy]. split; lra.
Qed.
Lemma apart_not_close : forall a b, -5 <= a -> a <= -1 -> b = 1 -> isclose a b = false.
Proof. intros a b A A' ->. unfold isclose. apply Bool.not_true_iff_false. rewrite rleb_true. unfold atol, rtol, Rabs. repeat destruct Rcase_abs; lra. Qed.
