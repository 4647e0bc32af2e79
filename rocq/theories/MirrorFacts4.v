(** * MirrorFacts4: rays parallel to the axis of a spherical mirror *)
From Coq Require Import Reals Lra Lia List Bool ZArith Psatz.
Import ListNotations.
From Verif Require Import XR XRFacts Arr Lin LinFacts Ops OpsFacts SpecOptics Prim Csg Surf SpecGeom SpecTree CsgProps SpanFacts BoxFacts TreeFacts SurfFacts
  World SpecWorld WorldFacts3 WorldFacts5 WorldProps Tracer SpecTrace FirstHit Components SpecComponents BuildFacts ComponentFacts ComponentFacts2 ComponentFacts3 ComponentOptics MirrorFacts MirrorFacts2.
Open Scope R_scope.

Lemma sphere_parallel : forall asort r t ap off, argsort_ok asort -> ap_ok ap -> 0 < t -> r <> 0 ->
  sqrt (fst off * fst off + snd off * snd off) + reach ap <= Rabs r ->
  built asort (spherical_mirror (Fin r) t ap off Mirror) (fun s =>
    forall c sg x y z, (sg = 1 \/ sg = -1) -> r = sg * Rabs r -> in_open_aperture ap off y z ->
      let k := sqrt (r * r - (y * y + z * z)) in
      sg * (r - sg * k) < sg * x ->
      c_ray c = Ray (pt x y z) (V4 (- sg) 0 0 0) ->
      exists c', bounce asort s c c' /\ origin (c_ray c') = pt (r - sg * k) y z /\
        ray_at (c_ray c') (r * r / (2 * k)) = pt (r - sg * (r * r / (2 * k))) 0 0 /\
        vdot (direction (c_ray c')) (direction (c_ray c')) = 1 /\ c_idx c' = c_idx c /\ c_int c' = c_int c).
Proof.
  intros asort r t ap off AS A T N F. eapply built_more; [|apply spherical_shape; auto; lra].
  intros s TO BC (p & Ep & E) c sg x y z SG RS I k BE R.
  destruct (erase_diff _ _ _ E) as (i & b & l & rr & -> & El & Er). pose proof TO as [TOl TOr].
  destruct (erase_leaf _ _ _ _ _ _ _ El TOl) as (fa & ba & -> & TA & OA).
  destruct (erase_leaf _ _ _ _ _ _ _ Er TOr) as (fb & bb & -> & TB & OB).
  pose proof (sph_front_pos r ap off A F) as G0. pose proof (off_reach_strict ap off _ _ A I) as ST.
  unfold sph_mid in *. set (g := sph_front r ap off) in *.
  set (h := sqrt (fst off * fst off + snd off * snd off) + reach ap) in *.
  assert (H0 : 0 < h) by (unfold h; pose proof (reach_pos ap A); pose proof (sqrt_pos (fst off * fst off + snd off * snd off)); lra).
  set (a := Rabs r) in *. assert (A0 : 0 < a) by (apply Rabs_pos_lt; exact N).
  assert (AA : a * a = r * r) by apply abs_sq.
  assert (HA : 0 <= a * a - h * h) by nra.
  assert (GE : g = a - sqrt (a * a - h * h)) by (unfold g, sph_front; fold a h; rewrite AA; reflexivity).
  assert (S0 := sqrt_pos (a * a - h * h)). assert (SS := sqrt_sqrt _ HA). set (sq := sqrt (a * a - h * h)) in *.
  assert (KA : 0 < r * r - (y * y + z * z)) by nra.
  assert (K0 : 0 < k) by (apply sqrt_lt_R0; exact KA).
  assert (KK : k * k = r * r - (y * y + z * z)) by (apply sqrt_sqrt; lra).
  assert (SK : sq < k) by (unfold sq, k; apply sqrt_lt_1_alt; split; [exact HA|rewrite AA; lra]).
  assert (KL : k <= a) by nra. clearbody k sq.
  assert (SQ : sg * sg = 1) by (destruct SG as [-> | ->]; lra).
  assert (BR : rltb 0 r = rltb 0 sg) by (destruct SG as [-> | ->]; [rewrite (proj2 (rltb_true 0 r)), (proj2 (rltb_true 0 1))|rewrite (proj2 (rltb_false 0 r)), (proj2 (rltb_false 0 (-1)))]; try reflexivity; lra).
  assert (PA : forall x y' z', placed fa (pt x y' z') <-> in_aperture ap off y' z' /\ (if rltb 0 sg then - t <= x <= g else - g <= x <= t)).
  { intros x' y' z'. rewrite (turned_placed _ _ _ _ _ _ _ x' y' z' OA TA). rewrite (aperture_solid ap (t + g) p off y' z' _ A ltac:(lra) Ep).
    rewrite BR. destruct (rltb 0 sg); split; intros [J K]; (split; [exact J|lra]). }
  assert (PB : forall x y' z', placed fb (pt x y' z') <-> y' * y' + z' * z' + (x - r) * (x - r) <= a * a).
  { intros x' y' z'. rewrite (turned_placed _ _ _ _ _ _ _ x' y' z' OB TB). unfold solid, pt; cbn [vx vy vz]. rewrite !Rminus_0_r. tauto. }
  set (q := sg * (x - r) + k).
  assert (XQ : forall u, x + (q + u) * - sg = r - sg * k - sg * u) by (intro u; unfold q; transitivity (x - (sg * sg) * (x - r) - sg * k - sg * u); [ring|rewrite SQ; ring]).
  assert (RA : forall u, ray_at (c_ray c) (q + u) = pt (r - sg * k - sg * u) y z) by (intro u; rewrite R, ray_pt, XQ; f_equal; ring).
  assert (RB : forall u, placed fb (ray_at (c_ray c) (q + u)) <-> (k + u) * (k + u) <= k * k).
  { intro u. rewrite RA, PB, AA. replace (y * y + z * z + (r - sg * k - sg * u - r) * (r - sg * k - sg * u - r)) with (y * y + z * z + (sg * sg) * ((k + u) * (k + u))) by ring. rewrite SQ. split; intro; lra. }
  assert (QP : 0 < q).
  { unfold q. replace (sg * (r - sg * k)) with (sg * r - (sg * sg) * k) in BE by ring. rewrite SQ in BE. lra. }
  assert (NE : near (fun u => placed fa (ray_at (c_ray c) (q + u)))).
  { eapply near_impl; [|apply near_and; [exact (near_aperture ap off y z 0 0 I)|apply near_and;
      [apply (near_line (r - sg * k) (- sg) (if rltb 0 sg then g else t))|apply (near_line' (r - sg * k) (- sg) (if rltb 0 sg then - t else - g))]]].
    - intros u [J [K1 K2]]. cbv beta. rewrite RA. apply PA. rewrite !Rmult_0_r, !Rplus_0_r in J. split; [exact J|].
      replace (r - sg * k - sg * u) with (r - sg * k + u * - sg) by ring. destruct (rltb 0 sg); lra.
    - destruct SG as [-> | ->]; [rewrite (proj2 (rltb_true 0 1)) by lra|rewrite (proj2 (rltb_false 0 (-1))) by lra]; lra.
    - destruct SG as [-> | ->]; [rewrite (proj2 (rltb_true 0 1)) by lra|rewrite (proj2 (rltb_false 0 (-1))) by lra]; lra. }
  destruct NE as (eps & E0 & NE).
  assert (CL : clear_towards ap (V4 (- sg) 0 0 0)).
  { unfold clear_towards, clear; cbn [vx vy vz]. repeat split; auto; [right; destruct SG as [-> | ->]; unfold atol; [rewrite Rabs_left by lra|rewrite Rabs_right by lra]; lra|].
    destruct ap; auto. left. ring. }
  assert (PR : propagate asort [Node i DIFFERENCE b (Leaf fa ba) (Leaf fb bb)] c = (Fin q, s_id fb)).
  { apply (dug_first asort AS i b fa ba fb bb c q eps); auto.
    - rewrite R. apply unit_moving. lra.
    - rewrite R. simpl. split; [|split].
      + unfold clear_dir; cbn [direction]. destruct CL as (C1 & C2 & C3 & _). auto.
      + destruct TA as (-> & _ & -> & _). eapply aperture_good; [exact Ep|exact CL].
      + destruct TB as (-> & _ & -> & _). split; exact Logic.I.
    - replace q with (q + 0) by ring. apply RB. rewrite Rplus_0_r. lra.
    - intros u UU. replace u with (q + (u - q)) by ring. rewrite RB. nra.
    - exists (q + - (2 * k)). split; [lra|]. split.
      + apply RB. nra.
      + right. intros u UU. replace u with (q + (u - q)) by ring. rewrite RA, PA. intros [_ J].
        destruct SG as [-> | ->]; [rewrite (proj2 (rltb_true 0 1)) in J by lra|rewrite (proj2 (rltb_false 0 (-1))) in J by lra]; lra. }
  assert (IA : forall u, u * / a * (u * / a) = u * u * / (a * a)) by (intro u; field; lra).
  assert (WN : world_normal fb (pt (r - sg * k) y z) = Some (V4 (sg * k * / a) (- (y * / a)) (- (z * / a)) 0)).
  { rewrite (turned_normal fb _ _ _ _ _ _ _ _ _ (V4 (y * / a) (z * / a) (- (sg * k * / a)) 0) TB).
    - cbn [vx vy vz]. f_equal. f_equal; ring.
    - replace (r - sg * k - r) with (a * - (sg * k * / a)) by (field; lra). rewrite !Rminus_0_r.
      replace y with (a * (y * / a)) at 1 by (field; lra). replace z with (a * (z * / a)) at 1 by (field; lra). apply sphere_normal_unit; [lra|].
      transitivity ((y * y + z * z + sg * sg * (k * k)) * / (a * a)); [field; lra|]. rewrite SQ, KK, AA. field. exact N.
    - reflexivity.
    - unfold unit, vdot; cbn [vx vy vz vw]. transitivity ((y * y + z * z + sg * sg * (k * k)) * / (a * a)); [field; lra|]. rewrite SQ, KK, AA. field. exact N. }
  assert (FW : c_ray (forward q c) = Ray (pt (r - sg * k) y z) (V4 (- sg) 0 0 0)).
  { rewrite (forward_pt c q _ _ _ _ _ _ R). f_equal. replace q with (q + 0) by ring. rewrite XQ. f_equal; ring. }
  set (d' := V4 (- sg + 2 * (k * k) / (a * a) * sg) (- (2 * k / (a * a) * y)) (- (2 * k / (a * a) * z)) 0).
  assert (AN : a <> 0) by lra.
  exists (with_direction d' (forward q c)). split; [|split; [|split; [|split; [|split]]]]; try reflexivity.
  - exists q, fb. split; [exact PR|]. split; [simpl; auto|]. unfold material_trace. destruct TB as (_ & -> & _). rewrite FW. cbn [origin direction]. rewrite WN.
    f_equal. f_equal. unfold reflect, vsub, vadd, vopp, vscale, vdot; cbn [vx vy vz vw].
    assert (D2 : - sg * (sg * k * / a) + 0 * - (y * / a) + 0 * - (z * / a) + 0 * 0 = - (k * / a)) by (transitivity (- (sg * sg) * k * / a); [ring|rewrite SQ; ring]).
    rewrite D2. unfold d'. f_equal; field; exact AN.
  - unfold with_direction, with_ray; cbn [c_ray origin]. rewrite FW. reflexivity.
  - unfold with_direction, with_ray; cbn [c_ray origin]. rewrite FW. unfold d'. cbn [origin]. unfold ray_at, pt, vadd, vscale; cbn [origin direction vx vy vz vw].
    rewrite <- AA. f_equal; field; lra.
  - unfold with_direction, with_ray; cbn [c_ray direction]. unfold d', vdot; cbn [vx vy vz vw].
    transitivity (sg * sg + 4 * (k * k) / (a * a) * ((sg * sg * (k * k) + (y * y + z * z)) / (a * a) - sg * sg)); [field; exact AN|]. rewrite SQ, KK, AA. field. exact N.
Qed.
Theorem sphere_focus : forall asort r t ap off, argsort_ok asort -> ap_ok ap -> 0 < t -> r <> 0 ->
  sqrt (fst off * fst off + snd off * snd off) + reach ap <= Rabs r ->
  built asort (spherical_mirror (Fin r) t ap off Mirror) (fun s =>
    forall c x y z, in_open_aperture ap off y z ->
      let q := y * y + z * z in let k := sqrt (r * r - q) in let focus := r - r * Rabs r / (2 * k) in
      r * sag (Fin r) q < r * x -> c_ray c = Ray (pt x y z) (V4 (- (r / Rabs r)) 0 0 0) ->
      exists c', bounce asort s c c' /\ origin (c_ray c') = pt (sag (Fin r) q) y z /\ unit (direction (c_ray c')) /\ c_idx c' = c_idx c /\ c_int c' = c_int c /\
        ray_at (c_ray c') (r * r / (2 * k)) = pt focus 0 0 /\ Rabs (focus - r / 2) <= q / (2 * k) /\
        (0 < q -> forall u, ray_at (c_ray c') u <> pt (r / 2) 0 0)).
Proof.
  intros asort r t ap off AS A T N F. eapply built_weaken; [|exact (sphere_parallel asort r t ap off AS A T N F)].
  cbv beta. intros s G c x y z I q k focus BE R. assert (A0 : 0 < Rabs r) by (apply Rabs_pos_lt; exact N).
  set (sg := r / Rabs r) in *. assert (AA := abs_sq r).
  assert (RS : r = sg * Rabs r) by (unfold sg; field; lra).
  assert (SG : sg = 1 \/ sg = -1) by (unfold sg; destruct (Rlt_dec 0 r); [left; rewrite Rabs_right by lra|right; rewrite Rabs_left by lra]; field; exact N).
  assert (SQ : sg * sg = 1) by (destruct SG as [-> | ->]; lra).
  assert (ES : sag (Fin r) q = r - sg * k).
  { unfold sag. fold k. destruct SG as [E | E]; rewrite E in RS |- *; [rewrite (proj2 (rltb_true 0 r)) by lra|rewrite (proj2 (rltb_false 0 r)) by lra]; ring. }
  rewrite ES in *.
  destruct (G c sg x y z SG RS I) as (c' & B & O' & H' & U & X1 & X2).
  { fold q. fold k. rewrite RS in BE at 1 3. apply (Rmult_lt_reg_l (Rabs r)); [exact A0|]. lra. }
  { exact R. }
  fold q in H', O'. fold k in H', O'.
  pose proof (off_reach_strict ap off _ _ A I) as ST. fold q in ST.
  assert (KA : 0 < r * r - q).
  { set (h := sqrt (fst off * fst off + snd off * snd off) + reach ap) in *.
    assert (0 < h) by (unfold h; pose proof (reach_pos ap A); pose proof (sqrt_pos (fst off * fst off + snd off * snd off)); lra). nra. }
  assert (K0 : 0 < k) by (apply sqrt_lt_R0; exact KA).
  assert (KK : k * k = r * r - q) by (apply sqrt_sqrt; lra).
  assert (Q0 : 0 <= q) by (unfold q; nra).
  assert (KL : k <= Rabs r) by nra.
  assert (EF : r - sg * (r * r / (2 * k)) = focus). { unfold focus. f_equal. transitivity (sg * Rabs r * Rabs r / (2 * k)); [rewrite <- AA; field; lra|rewrite <- RS; reflexivity]. }
  rewrite EF in H'.
  assert (E : focus - r / 2 = sg * (- (q / (2 * k) * (Rabs r / (Rabs r + k))))).
  { assert (EQ : q = (Rabs r - k) * (Rabs r + k)) by (transitivity (Rabs r * Rabs r - k * k); [lra|ring]).
    rewrite EQ. unfold focus. transitivity (sg * Rabs r - sg * Rabs r * Rabs r / (2 * k) - sg * Rabs r / 2); [rewrite <- RS; reflexivity|]. field. lra. }
  exists c'. repeat split; auto.
  - rewrite E, Rabs_mult, Rabs_Ropp. replace (Rabs sg) with 1 by (destruct SG as [-> | ->]; [rewrite Rabs_right|rewrite Rabs_left]; lra).
    assert (P1 : 0 <= q / (2 * k)) by (apply Rmult_le_pos; [lra|apply Rlt_le, Rinv_0_lt_compat; lra]).
    assert (P2 : 0 <= Rabs r / (Rabs r + k) <= 1).
    { split; [apply Rmult_le_pos; [lra|apply Rlt_le, Rinv_0_lt_compat; lra]|]. apply (Rmult_le_reg_r (Rabs r + k)); [lra|]. unfold Rdiv. rewrite Rmult_assoc, Rinv_l by lra. lra. }
    rewrite Rabs_right by (apply Rle_ge; nra). nra.
  - intros QP u E'. assert (FN : focus - r / 2 <> 0).
    { rewrite E. assert (0 < q / (2 * k) * (Rabs r / (Rabs r + k))) by (apply Rmult_lt_0_compat; apply Rdiv_lt_0_compat; lra). destruct SG as [-> | ->]; lra. }
    apply FN. assert (EU : u = r * r / (2 * k)); [|rewrite EU, H' in E'; apply (f_equal vx) in E'; cbn [pt vx] in E'; lra].
    unfold ray_at in H', E'. rewrite O' in H', E'. destruct (direction (c_ray c')) as [dx dy dz dw]. unfold vadd, vscale, pt in H', E'; cbn [vx vy vz vw] in H', E'.
    set (w := r * r / (2 * k)) in *. injection H' as _ HY HZ _. injection E' as _ EY EZ _.
    assert (Z1 : (u - w) * dy = 0) by lra. assert (Z2 : (u - w) * dz = 0) by lra.
    apply Rmult_integral in Z1. apply Rmult_integral in Z2.
    destruct Z1 as [Z1|Z1]; [lra|]. destruct Z2 as [Z2|Z2]; [lra|]. rewrite Z1 in HY. rewrite Z2 in HZ. exfalso. assert (y = 0) by lra. assert (z = 0) by lra. unfold q in QP. subst y z. lra.
Qed.
