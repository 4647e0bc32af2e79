(** * MirrorFacts2: rays through the centre of a spherical mirror *)
From Coq Require Import Reals Lra Lia List Bool ZArith Psatz.
Import ListNotations.
From Verif Require Import XR XRFacts Arr Lin LinFacts Ops OpsFacts SpecOptics Prim Csg Surf SpecGeom SpecTree CsgProps SpanFacts BoxFacts TreeFacts SurfFacts
  World SpecWorld WorldFacts3 WorldFacts5 WorldProps Tracer SpecTrace FirstHit Components SpecComponents BuildFacts ComponentFacts ComponentFacts2 ComponentFacts3 ComponentOptics MirrorFacts.
Open Scope R_scope.

Definition sph_front (r : R) (ap : aperture_arg) (off : R * R) : R :=
  let h := sqrt (fst off * fst off + snd off * snd off) + reach ap in Rabs r - sqrt (r * r - h * h).
Definition sph_mid (r t : R) (ap : aperture_arg) (off : R * R) : R :=
  if rltb 0 r then (sph_front r ap off + t) / 2 - t else t - (sph_front r ap off + t) / 2.
Lemma sph_front_pos : forall r ap off, ap_ok ap -> sqrt (fst off * fst off + snd off * snd off) + reach ap <= Rabs r -> 0 <= sph_front r ap off.
Proof.
  intros r ap off A F. pose proof (reach_pos ap A). pose proof (sqrt_pos (fst off * fst off + snd off * snd off)).
  pose proof (side_depth_pos r (sqrt (fst off * fst off + snd off * snd off) + reach ap) ltac:(lra) F) as X. unfold side_depth in X. rewrite abs_sq in X. exact X.
Qed.
Lemma spherical_shape : forall asort r t ap off m, argsort_ok asort -> ap_ok ap -> 0 <= t -> r <> 0 ->
  sqrt (fst off * fst off + snd off * snd off) + reach ap <= Rabs r ->
  built asort (spherical_mirror (Fin r) t ap off m) (fun s => exists p, create_aperture ap (t + sph_front r ap off) = Some p /\
    erase s = TNode DIFFERENCE (TLeaf p Absorber (tw (fst off) (snd off) (sph_mid r t ap off)) 1) (TLeaf (PSphere (Rabs r)) m (tw 0 0 r) (-1))).
Proof.
  intros asort r t ap off m AO A T N F. unfold spherical_mirror. destruct (create_aperture_ok ap 0 A) as (p0 & Ep0). rewrite Ep0. cbv zeta. clear p0 Ep0.
  rewrite max_height_reach. pose proof (sph_front_pos r ap off A F) as F0. unfold sph_mid. unfold sph_front in *. cbv zeta in *.
  set (L := sqrt (fst off * fst off + snd off * snd off)) in *. pose proof (reach_pos ap A) as P.
  assert (L0 : 0 <= L) by apply sqrt_pos.
  assert (HH : 0 <= r * r - (L + reach ap) * (L + reach ap)) by (apply (room r _ (L + reach ap)); lra).
  unfold np_sqrt. replace (rleb 0 (r * r - (L + reach ap) * (L + reach ap))) with true by (symmetry; apply rleb_true; exact HH).
  set (front := Rabs r - sqrt (r * r - (L + reach ap) * (L + reach ap))) in *.
  destruct (create_aperture_ok ap (t + front) A) as (p & Ep). rewrite Ep. destruct (Req_EM_T r 0) as [|_]; [contradiction|].
  set (zc := if rltb 0 r then (front + t) / 2 - t else t - (front + t) / 2).
  set (R0 := if rltb 0 r then r else Rabs r).
  eapply (built_turned asort _ _ _ (TNode DIFFERENCE (TLeaf p Absorber (mmul (mmove 0 0 zc) (mmul (mmove (fst off) (snd off) 0) mid)) 1)
     (TLeaf (PSphere R0) m (mmul (mmove 0 0 r) mid) (-1)))); [exact AO|cbn [track track_call]; rewrite (aperture_init _ _ _ Ep); trk|reflexivity|reflexivity| |].
  - simpl. split; [split; [eapply aperture_prim_ok; [exact A| |exact Ep]; lra|apply affine_mmul; [reflexivity|apply affine_mmul; reflexivity]]|].
    split; [|apply affine_mmul; reflexivity]. unfold R0. destruct (rltb 0 r); [exact N|apply Rabs_no_R0; exact N].
  - intros s E _ _. exists p. split; [reflexivity|]. rewrite E. cbn [mv]. rewrite !mmul_mid_r, !mmove_mmove, !tw_eq.
    assert (ER : R0 = Rabs r). { unfold R0. destruct (rltb 0 r) eqn:B; auto. apply rltb_true in B. rewrite Rabs_right; lra. }
    rewrite ER. do 2 f_equal; f_equal; ring.
Qed.
Lemma off_reach_strict : forall ap off y z, ap_ok ap -> in_open_aperture ap off y z ->
  y * y + z * z < (sqrt (fst off * fst off + snd off * snd off) + reach ap) * (sqrt (fst off * fst off + snd off * snd off) + reach ap).
Proof.
  intros ap off y z A I. pose proof (norm2_tri (fst off) (snd off) (y - fst off) (z - snd off)) as N.
  replace (fst off + (y - fst off)) with y in N by ring. replace (snd off + (z - snd off)) with z in N by ring.
  pose proof (reach_pos ap A) as P. set (L := sqrt (fst off * fst off + snd off * snd off)) in *.
  assert (B : sqrt ((y - fst off) * (y - fst off) + (z - snd off) * (z - snd off)) < reach ap).
  { destruct ap as [d|a b]; simpl in *.
    - rewrite <- (sqrt_square (d / 2)) by lra. apply sqrt_lt_1_alt. split; [apply Rplus_le_le_0_compat; apply Rle_0_sqr|lra].
    - destruct I as [Y Z]. apply sqrt_lt_1_alt. split; [apply Rplus_le_le_0_compat; apply Rle_0_sqr|].
      rewrite <- (abs_sq (y - fst off)), <- (abs_sq (z - snd off)). pose proof (Rabs_pos (y - fst off)). pose proof (Rabs_pos (z - snd off)). nra. }
  assert (L0 : 0 <= L) by apply sqrt_pos. pose proof (sqrt_pos (y * y + z * z)) as S0. assert (SS := sqrt_sqrt (y * y + z * z) ltac:(nra)). nra.
Qed.
Lemma sphere_normal_unit : forall rad a b c k, 0 < k -> a * a + b * b + c * c = 1 ->
  prim_normal (PSphere rad) (pt (k * a) (k * b) (k * c)) = Some (V4 a b c 0).
Proof.
  intros rad a b c k K U. unfold prim_normal, sphere_normal, vset_w, pt; cbn [vx vy vz].
  set (n := V4 (k * a) (k * b) (k * c) 0).
  assert (D : vdot n n = k * k) by (unfold n, vdot; cbn [vx vy vz vw]; transitivity (k * k * (a * a + b * b + c * c)); [ring|rewrite U; ring]).
  destruct (vnormalize_hat n) as [E _]; [rewrite D; nra|]. rewrite E. unfold hat, vnorm. rewrite D, sqrt_square by lra. unfold n, vscale; cbn [vx vy vz vw].
  f_equal. f_equal; field; lra.
Qed.

Lemma sphere_retro : forall asort r t ap off, argsort_ok asort -> ap_ok ap -> 0 < t -> r <> 0 ->
  sqrt (fst off * fst off + snd off * snd off) + reach ap <= Rabs r ->
  built asort (spherical_mirror (Fin r) t ap off Mirror) (fun s =>
    forall c k dx dy dz, dx * dx + dy * dy + dz * dz = 1 -> clear_towards ap (V4 dx dy dz 0) -> r * dx < 0 -> k < Rabs r ->
      in_open_aperture ap off (Rabs r * dy) (Rabs r * dz) ->
      c_ray c = Ray (pt (r + k * dx) (k * dy) (k * dz)) (V4 dx dy dz 0) ->
      exists c', bounce asort s c c' /\ direction (c_ray c') = V4 (- dx) (- dy) (- dz) 0 /\
        origin (c_ray c') = pt (r + Rabs r * dx) (Rabs r * dy) (Rabs r * dz) /\ c_idx c' = c_idx c /\ c_int c' = c_int c).
Proof.
  intros asort r t ap off AS A T N F. eapply built_more; [|apply spherical_shape; auto; lra].
  intros s TO BC (p & Ep & E) c k dx dy dz U CT RD KR I R.
  destruct (erase_diff _ _ _ E) as (i & b & l & rr & -> & El & Er). pose proof TO as [TOl TOr].
  destruct (erase_leaf _ _ _ _ _ _ _ El TOl) as (fa & ba & -> & TA & OA).
  destruct (erase_leaf _ _ _ _ _ _ _ Er TOr) as (fb & bb & -> & TB & OB).
  pose proof (sph_front_pos r ap off A F) as G0. pose proof (off_reach_strict ap off _ _ A I) as ST.
  unfold sph_mid in *. set (g := sph_front r ap off) in *.
  set (h := sqrt (fst off * fst off + snd off * snd off) + reach ap) in *.
  assert (H0 : 0 < h) by (unfold h; pose proof (reach_pos ap A); pose proof (sqrt_pos (fst off * fst off + snd off * snd off)); lra).
  set (a := Rabs r) in *. assert (A0 : 0 < a) by (apply Rabs_pos_lt; exact N).
  assert (AA : a * a = r * r) by apply abs_sq.
  assert (HA : 0 <= a * a - h * h) by nra.
  assert (GE : g = a - sqrt (a * a - h * h)) by (unfold g, sph_front; fold a h; rewrite AA; reflexivity).
  assert (S0 := sqrt_pos (a * a - h * h)). assert (SS := sqrt_sqrt _ HA). set (sq := sqrt (a * a - h * h)) in *.
  (* the sign of the radius *)
  assert (SG : (r = a /\ dx < 0 /\ rltb 0 r = true) \/ (r = - a /\ 0 < dx /\ rltb 0 r = false)).
  { unfold a. destruct (Rlt_dec 0 r).
    - left. rewrite Rabs_right by lra. split; auto. split; [nra|]. apply rltb_true. lra.
    - right. rewrite Rabs_left by lra. split; [lra|]. split; [nra|]. apply rltb_false. lra. }
  (* the point is strictly inside the depth of the part *)
  assert (DX : sq < a * Rabs dx).
  { apply Rnot_le_lt. intro Q. assert (a * dx * (a * dx) <= sq * sq).
    { replace (a * dx * (a * dx)) with (a * Rabs dx * (a * Rabs dx)) by (pose proof (abs_sq dx) as X; transitivity (a * a * (Rabs dx * Rabs dx)); [ring|rewrite X; ring]).
      pose proof (Rabs_pos dx). assert (0 <= a * Rabs dx) by nra. nra. }
    rewrite SS in H. nra. }
  assert (DX1 : Rabs dx <= 1) by (rewrite <- (sqrt_square 1) by lra; rewrite <- sqrt_Rsqr_abs; apply sqrt_le_1_alt; unfold Rsqr; nra).
  assert (PA : forall x y' z', placed fa (pt x y' z') <-> in_aperture ap off y' z' /\ (if rltb 0 r then - t <= x <= g else - g <= x <= t)).
  { intros x y' z'. rewrite (turned_placed _ _ _ _ _ _ _ x y' z' OA TA). rewrite (aperture_solid ap (t + g) p off y' z' _ A ltac:(lra) Ep).
    destruct (rltb 0 r); split; intros [J K]; (split; [exact J|lra]). }
  assert (PB : forall x y' z', placed fb (pt x y' z') <-> y' * y' + z' * z' + (x - r) * (x - r) <= a * a).
  { intros x y' z'. rewrite (turned_placed _ _ _ _ _ _ _ x y' z' OB TB). unfold solid, pt; cbn [vx vy vz]. rewrite !Rminus_0_r. tauto. }
  assert (RA : forall u, ray_at (c_ray c) u = pt (r + (k + u) * dx) ((k + u) * dy) ((k + u) * dz)) by (intro u; rewrite R, ray_pt; f_equal; ring).
  assert (RB : forall u, placed fb (ray_at (c_ray c) u) <-> (k + u) * (k + u) <= a * a).
  { intro u. rewrite RA, PB. replace ((k + u) * dy * ((k + u) * dy) + (k + u) * dz * ((k + u) * dz) + (r + (k + u) * dx - r) * (r + (k + u) * dx - r))
      with ((k + u) * (k + u) * (dx * dx + dy * dy + dz * dz)) by ring. rewrite U, Rmult_1_r. tauto. }
  set (q := a - k).
  assert (NE : near (fun u => placed fa (ray_at (c_ray c) (q + u)))).
  { eapply near_impl; [|apply near_and; [exact (near_aperture ap off (a * dy) (a * dz) dy dz I)|apply near_and;
      [apply (near_line (r + a * dx) dx (if rltb 0 r then g else t))|apply (near_line' (r + a * dx) dx (if rltb 0 r then - t else - g))]]].
    - intros u [J [K1 K2]]. cbv beta. rewrite RA. apply PA. replace (k + (q + u)) with (a + u) by (unfold q; ring).
      replace ((a + u) * dy) with (a * dy + u * dy) by ring. replace ((a + u) * dz) with (a * dz + u * dz) by ring. split; [exact J|].
      replace (r + (a + u) * dx) with (r + a * dx + u * dx) by ring. destruct (rltb 0 r); lra.
    - destruct SG as [(Er' & Dx & ->)|(Er' & Dx & ->)]; [rewrite Rabs_left in DX by lra; lra|]. rewrite Rabs_right in DX, DX1 by lra. nra.
    - destruct SG as [(Er' & Dx & ->)|(Er' & Dx & ->)]; [rewrite Rabs_left in DX, DX1 by lra; nra|]. rewrite Rabs_right in DX by lra. lra. }
  destruct NE as (eps & E0 & NE).
  assert (PR : propagate asort [Node i DIFFERENCE b (Leaf fa ba) (Leaf fb bb)] c = (Fin q, s_id fb)).
  { apply (dug_first asort AS i b fa ba fb bb c q eps); auto.
    - rewrite R. apply unit_moving. exact U.
    - rewrite R. simpl. split; [|split].
      + unfold clear_dir; cbn [direction]. destruct CT as (C1 & C2 & C3 & _). auto.
      + destruct TA as (-> & _ & -> & _). eapply aperture_good; [exact Ep|exact CT].
      + destruct TB as (-> & _ & -> & _). split; exact Logic.I.
    - unfold q. lra.
    - apply RB. unfold q. replace (k + (a - k)) with a by ring. lra.
    - intros u UU. rewrite RB. unfold q in UU. nra.
    - exists (- a - k). split; [unfold q; lra|]. split.
      + apply RB. replace (k + (- a - k)) with (- a) by ring. lra.
      + right. intros u UU. rewrite RA, PA. intros [_ J]. destruct SG as [(Er' & Dx & B)|(Er' & Dx & B)]; rewrite B in J.
        * assert (r <= r + (k + u) * dx) by nra. assert (a * Rabs dx <= a) by nra. rewrite Rabs_left in * by lra.
          assert (- a * dx <= (k + u) * dx) by nra. lra.
        * assert (a * Rabs dx <= a) by nra. rewrite Rabs_right in * by lra.
          assert ((k + u) * dx <= - a * dx) by nra. lra. }
  assert (WN : world_normal fb (pt (r + a * dx) (a * dy) (a * dz)) = Some (V4 (- dx) (- dy) (- dz) 0)).
  { rewrite (turned_normal fb _ _ _ _ _ _ _ _ _ (V4 dy dz dx 0) TB).
    - cbn [vx vy vz]. f_equal. f_equal; ring.
    - replace (r + a * dx - r) with (a * dx) by ring. rewrite !Rminus_0_r. apply sphere_normal_unit; lra.
    - reflexivity.
    - unfold unit, vdot; cbn [vx vy vz vw]. lra. }
  assert (FW : c_ray (forward q c) = Ray (pt (r + a * dx) (a * dy) (a * dz)) (V4 dx dy dz 0)).
  { rewrite (forward_pt c q _ _ _ _ _ _ R). f_equal. unfold q. f_equal; ring. }
  exists (with_direction (V4 (- dx) (- dy) (- dz) 0) (forward q c)). split; [|split; [|split; [|split]]]; try reflexivity.
  - exists q, fb. split; [exact PR|]. split; [simpl; auto|]. unfold material_trace. destruct TB as (_ & -> & _). rewrite FW. cbn [origin direction]. rewrite WN.
    f_equal. f_equal. unfold reflect, vsub, vadd, vopp, vscale, vdot; cbn [vx vy vz vw].
    assert (D2 : dx * - dx + dy * - dy + dz * - dz + 0 * 0 = -1) by lra. rewrite D2. f_equal; ring.
  - unfold with_direction, with_ray; cbn [c_ray origin]. rewrite FW. reflexivity.
Qed.
