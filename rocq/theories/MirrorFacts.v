(** * MirrorFacts: rays meeting the curved mirrors *)
From Coq Require Import Reals Lra Lia List Bool ZArith Psatz.
Import ListNotations.
From Verif Require Import XR XRFacts Arr Lin LinFacts Ops OpsFacts SpecOptics Prim Csg Surf SpecGeom SpecTree CsgProps SpanFacts BoxFacts TreeFacts SurfFacts
  World SpecWorld WorldFacts3 WorldFacts5 WorldProps Tracer SpecTrace FirstHit Components SpecComponents BuildFacts ComponentFacts ComponentFacts2 ComponentFacts3 ComponentOptics.
Open Scope R_scope.

Lemma clear_0 : clear 0.
Proof. left. reflexivity. Qed.
Lemma atol_small : atol <= 1 / 100000000.
Proof. unfold atol. lra. Qed.
Lemma aperture_good : forall ap th p u v c x y z dx dy dz, create_aperture ap th = Some p -> clear_towards ap (V4 dx dy dz 0) ->
  good_local p (ray_map (tobj u v c) (Ray (pt x y z) (V4 dx dy dz 0))).
Proof.
  intros [d|a b] th p u v c x y z dx dy dz E (X & Y & Z & W); unfold create_aperture in E; cbn [vx vy vz] in *.
  - injection E as <-. unfold good_local, clear_ray, ray_map; cbn [direction origin]. rewrite tobj_vec. cbn [vx vy vz]. auto.
  - destruct (rltb 0 a && rltb 0 b)%bool; [|discriminate]. injection E as <-. unfold good_local, clear_ray, ray_map; cbn [direction origin].
    rewrite tobj_vec. cbn [vx vy vz]. auto.
Qed.
Lemma unit_moving : forall x y z dx dy dz, dx * dx + dy * dy + dz * dz = 1 -> world_ray (Ray (pt x y z) (V4 dx dy dz 0)).
Proof.
  intros x y z dx dy dz U. split; [reflexivity|]. split; [reflexivity|]. unfold moving; cbn [direction vx vy vz]. intros (-> & -> & ->). lra.
Qed.

(** ** The parabolic mirror *)
Lemma para_shape : forall asort f t ap off m, argsort_ok asort -> ap_ok ap -> 0 <= t -> 0 < f ->
  built asort (parabolic_mirror f t ap off m) (fun s => exists p, create_aperture ap (t + para_front f ap off) = Some p /\
    erase s = TNode DIFFERENCE (TLeaf p Absorber (tw (fst off) (snd off) ((t + para_front f ap off) / 2 - t - f)) 1)
                               (TLeaf (PParaboloid f (15 / 10 * para_front f ap off)) m (tw 0 0 (- f)) (-1))).
Proof.
  intros asort f t ap off m AO A T F. apply parabolic_tree; auto. intros s p Ep E _ _. exists p. split; [exact Ep|]. rewrite E.
  unfold para_tree. cbn [mv]. rewrite !mmul_mid_r, !mmove_mmove, !tw_eq. do 2 f_equal; f_equal; ring.
Qed.
Lemma para_strict : forall f ap off y z, ap_ok ap -> 0 < f -> in_open_aperture ap off y z -> (y * y + z * z) / (4 * f) < para_front f ap off.
Proof.
  intros f ap off y z A F I. assert (K : y * y + z * z < far_edge ap off * far_edge ap off).
  { destruct ap as [d|a b]; simpl in *.
    - pose proof (off_reach (Round d) off y z A ltac:(simpl; lra)) as [_ X]. simpl in X.
      pose proof (sqrt_pos (fst off * fst off + snd off * snd off)). nra.
    - rewrite sqrt_sqrt by (apply Rplus_le_le_0_compat; apply Rle_0_sqr). destruct I as [Y Z].
      assert (Y1 : Rabs y < Rabs (fst off) + a / 2) by (replace y with (fst off + (y - fst off)) by ring; eapply Rle_lt_trans; [apply Rabs_triang|lra]).
      assert (Z1 : Rabs z < Rabs (snd off) + b / 2) by (replace z with (snd off + (z - snd off)) by ring; eapply Rle_lt_trans; [apply Rabs_triang|lra]).
      rewrite <- (abs_sq y), <- (abs_sq z). pose proof (Rabs_pos y). pose proof (Rabs_pos z). nra. }
  unfold para_front. unfold Rdiv. rewrite Rmult_1_l, (Rmult_comm (/ (4 * f))).
  apply Rmult_lt_compat_r; [apply Rinv_0_lt_compat; lra|exact K].
Qed.
Lemma reach_edge : forall ap off, ap_ok ap -> reach ap <= far_edge ap off.
Proof.
  intros [d|a b] off A; simpl in *.
  - pose proof (sqrt_pos (fst off * fst off + snd off * snd off)). lra.
  - apply sqrt_le_1_alt. pose proof (Rabs_pos (fst off)). pose proof (Rabs_pos (snd off)). nra.
Qed.
Lemma para_normal : forall f h y z w, 0 < f -> isclose w h = false ->
  exists N, 0 < N /\ N * N = y * y + z * z + 4 * (f * f) /\ prim_normal (PParaboloid f h) (pt y z w) = Some (V4 (y / N) (z / N) (-2 * f / N) 0).
Proof.
  intros f h y z w F C. exists (sqrt (y * y + z * z + 4 * (f * f))).
  assert (P : 0 < y * y + z * z + 4 * (f * f)) by nra. split; [apply sqrt_lt_R0; exact P|]. split; [apply sqrt_sqrt; lra|].
  unfold prim_normal, paraboloid_normal. cbn [pt vx vy vz]. rewrite C.
  set (n := V4 y z (-2 * f) 0). assert (D : vdot n n = y * y + z * z + 4 * (f * f)) by (unfold n, vdot; cbn [vx vy vz vw]; ring).
  destruct (vnormalize_hat n) as [E _]; [rewrite D; lra|]. change (V4 (vx (V4 y z w 1)) (vy (V4 y z w 1)) (-2 * f) 0) with n. rewrite E.
  unfold hat, vnorm. rewrite D. unfold n, vscale; cbn [vx vy vz vw]. unfold Rdiv. f_equal. f_equal; ring.
Qed.

Lemma para_focuses : forall asort f t ap off, argsort_ok asort -> ap_ok ap -> 0 < t -> atol < 4 * f -> 1 / 10000000 <= reach ap * reach ap / (4 * f) ->
  built asort (parabolic_mirror f t ap off Mirror) (fun s =>
    forall c x0 y z, c_ray c = Ray (pt x0 y z) (V4 (-1) 0 0 0) -> in_open_aperture ap off y z ->
      (y * y + z * z) / (4 * f) - f < x0 ->
      exists c' tau, bounce asort s c c' /\ 0 < tau /\ ray_at (c_ray c') tau = pt 0 0 0 /\
        origin (c_ray c') = pt ((y * y + z * z) / (4 * f) - f) y z /\ c_idx c' = c_idx c /\ c_int c' = c_int c).
Proof.
  intros asort f t ap off AS A T F4 Big. pose proof atol_pos as AP. assert (F : 0 < f) by lra.
  eapply built_more; [|apply para_shape; auto; lra].
  intros s TO BC (p & Ep & E) c x0 y z R I X0.
  destruct (erase_diff _ _ _ E) as (i & b & l & rr & -> & El & Er). pose proof TO as [TOl TOr].
  destruct (erase_leaf _ _ _ _ _ _ _ El TOl) as (fa & ba & -> & TA & OA).
  destruct (erase_leaf _ _ _ _ _ _ _ Er TOr) as (fb & bb & -> & TB & OB).
  set (g := para_front f ap off) in *.
  assert (G0 : 0 < g) by (apply para_front_pos; auto).
  assert (G1 : 1 / 10000000 <= g).
  { eapply Rle_trans; [exact Big|]. unfold g, para_front, Rdiv. rewrite Rmult_1_l, (Rmult_comm (/ (4 * f))). apply Rmult_le_compat_r; [left; apply Rinv_0_lt_compat; lra|].
    pose proof (reach_edge ap off A). pose proof (reach_pos ap A). nra. }
  pose proof (para_strict f ap off y z A F I) as WG. fold g in WG.
  set (w := (y * y + z * z) / (4 * f)) in *.
  assert (W0 : 0 <= w) by (apply Rmult_le_pos; [nra|left; apply Rinv_0_lt_compat; lra]).
  assert (WE : y * y + z * z = 4 * f * w) by (unfold w; field; lra).
  assert (PA : forall x y' z', placed fa (pt x y' z') <-> in_aperture ap off y' z' /\ - (t + f) <= x <= g - f).
  { intros x y' z'. rewrite (turned_placed _ _ _ _ _ _ _ x y' z' OA TA). rewrite (aperture_solid ap (t + g) p off y' z' _ A ltac:(lra) Ep).
    split; intros [J K]; (split; [exact J|lra]). }
  assert (PB : forall x y' z', placed fb (pt x y' z') <-> y' * y' + z' * z' <= 4 * f * (x + f) /\ 0 <= x + f <= 15 / 10 * g).
  { intros x y' z'. rewrite (turned_placed _ _ _ _ _ _ _ x y' z' OB TB). unfold solid, pt; cbn [vx vy vz]. replace (x - - f) with (x + f) by ring. rewrite !Rminus_0_r. tauto. }
  assert (CT : clear_towards ap (V4 (-1) 0 0 0)).
  { unfold clear_towards; cbn [vx vy vz]. assert (C1 : clear (-1)) by (right; rewrite Rabs_left by lra; pose proof atol_small; lra).
    split; [exact C1|]. split; [apply clear_0|]. split; [apply clear_0|]. destruct ap; [|exact Logic.I]. rewrite Rmult_0_l, Rplus_0_l. apply clear_0. }
  assert (RA : forall u, ray_at (c_ray c) u = pt (x0 - u) y z) by (intro u; rewrite R, ray_pt; f_equal; ring).
  set (q := x0 + f - w).
  assert (PR : propagate asort [Node i DIFFERENCE b (Leaf fa ba) (Leaf fb bb)] c = (Fin q, s_id fb)).
  { apply (dug_first asort AS i b fa ba fb bb c q (Rmin (g - w) t)); auto.
    - rewrite R. apply unit_moving. ring.
    - rewrite R. simpl. split; [|split].
      + unfold clear_dir; cbn [direction]. destruct CT as (C1 & C2 & C3 & _). auto.
      + destruct TA as (-> & _ & -> & _). eapply aperture_good; [exact Ep|exact CT].
      + destruct TB as (-> & _ & -> & _). unfold good_local, clear_ray, ray_map; cbn [direction origin]. rewrite tobj_vec. cbn [vx vy vz].
        split; [|exact Logic.I]. split; [rewrite Rmult_0_l, Rplus_0_l; apply clear_0|]. split; [apply CT|]. right. rewrite Rabs_left; lra.
    - apply Rmin_pos; lra.
    - unfold q. lra.
    - intros u U. rewrite RA. apply PA. split; [apply open_aperture; exact I|].
      pose proof (Rmin_l (g - w) t). pose proof (Rmin_r (g - w) t). unfold q. destruct (Rcase_abs u); [rewrite Rabs_left in U by lra|rewrite Rabs_right in U by lra]; lra.
    - rewrite RA. apply PB. unfold q. replace (x0 - (x0 + f - w) + f) with w by ring. split; [lra|]. lra.
    - intros u U. rewrite RA, PB. intros [J _]. unfold q in U. rewrite WE in J. apply Rmult_le_reg_l in J; lra.
    - exists (x0 + f - 12 / 10 * g). split; [unfold q; lra|]. split.
      + rewrite RA. apply PB. replace (x0 - (x0 + f - 12 / 10 * g) + f) with (12 / 10 * g) by ring. split; [|lra]. rewrite WE. apply Rmult_le_compat_l; lra.
      + right. intros u U. rewrite RA, PA. intros [_ J]. lra. }
  assert (NC : isclose w (15 / 10 * g) = false).
  { unfold isclose. apply rleb_false. rewrite (Rabs_right (15 / 10 * g)) by lra. rewrite Rabs_left by lra. unfold rtol. pose proof atol_small. lra. }
  destruct (para_normal f (15 / 10 * g) y z w F NC) as (N & N0 & N2 & PN).
  assert (WN : world_normal fb (pt (w - f) y z) = Some (V4 (2 * f / N) (- y / N) (- z / N) 0)).
  { rewrite (turned_normal fb _ _ _ _ _ _ (w - f) y z (V4 (y / N) (z / N) (-2 * f / N) 0) TB).
    - cbn [vx vy vz]. f_equal. f_equal; field; lra.
    - replace (w - f - - f) with w by ring. rewrite !Rminus_0_r. exact PN.
    - reflexivity.
    - unfold unit, vdot; cbn [vx vy vz vw]. transitivity ((y * y + z * z + 4 * (f * f)) / (N * N)); [field; lra|]. rewrite <- N2. field. lra. }
  set (d' := V4 (-1 + 8 * (f * f) / (N * N)) (- (4 * f * y) / (N * N)) (- (4 * f * z) / (N * N)) 0).
  assert (FW : c_ray (forward q c) = Ray (pt (w - f) y z) (V4 (-1) 0 0 0)).
  { rewrite (forward_pt c q _ _ _ _ _ _ R). f_equal. unfold q. f_equal; ring. }
  exists (with_direction d' (forward q c)), (N * N / (4 * f)). split; [|split; [|split; [|split; [|split]]]].
  - exists q, fb. split; [exact PR|]. split; [simpl; auto|]. unfold material_trace. destruct TB as (_ & -> & _). rewrite FW. cbn [origin direction]. rewrite WN.
    f_equal. f_equal. unfold d', reflect, vsub, vadd, vopp, vscale, vdot; cbn [vx vy vz vw]. f_equal; field; lra.
  - apply Rdiv_lt_0_compat; nra.
  - unfold with_direction, with_ray; cbn [c_ray]. rewrite FW. cbn [origin]. unfold d'. rewrite ray_pt. unfold pt. f_equal.
    + assert (w = (N * N - 4 * (f * f)) / (4 * f)) as -> by (rewrite N2; unfold w; field; lra). field. lra.
    + field. lra.
    + field. lra.
  - unfold with_direction, with_ray; cbn [c_ray origin]. rewrite FW. reflexivity.
  - reflexivity.
  - reflexivity.
Qed.
