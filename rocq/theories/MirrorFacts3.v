(** * MirrorFacts3: light from the focus of a parabolic mirror; flat faces *)
From Coq Require Import Reals Lra Lia List Bool ZArith Psatz.
Import ListNotations.
From Verif Require Import XR XRFacts Arr Lin LinFacts Ops OpsFacts SpecOptics Prim Csg Surf SpecGeom SpecTree CsgProps SpanFacts BoxFacts TreeFacts SurfFacts
  World SpecWorld WorldFacts3 WorldFacts5 WorldProps Tracer SpecTrace FirstHit Components SpecComponents BuildFacts ComponentFacts ComponentFacts2 ComponentFacts3 ComponentOptics MirrorFacts PlateFacts.
Open Scope R_scope.

Lemma para_collimates : forall asort f t ap off, argsort_ok asort -> ap_ok ap -> 0 < t -> 0 < f -> 1 / 10000000 <= reach ap * reach ap / (4 * f) ->
  built asort (parabolic_mirror f t ap off Mirror) (fun s =>
    forall c y z, in_open_aperture ap off y z ->
      let w := (y * y + z * z) / (4 * f) in
      let d := V4 ((w - f) / (w + f)) (y / (w + f)) (z / (w + f)) 0 in
      c_ray c = Ray (pt 0 0 0) d -> clear_towards ap d -> clear (vy d * vy d + vz d * vz d) -> clear (4 * f * vx d) ->
      exists c', bounce asort s c c' /\ origin (c_ray c') = pt (w - f) y z /\ direction (c_ray c') = V4 1 0 0 0).
Proof.
  intros asort f t ap off AS A T F Big. pose proof atol_pos as AP.
  eapply built_more; [|apply para_shape; auto; lra].
  intros s TO BC (p & Ep & E) c y z I w d R CT C2 C4.
  destruct (erase_diff _ _ _ E) as (i & b & l & rr & -> & El & Er). pose proof TO as [TOl TOr].
  destruct (erase_leaf _ _ _ _ _ _ _ El TOl) as (fa & ba & -> & TA & OA).
  destruct (erase_leaf _ _ _ _ _ _ _ Er TOr) as (fb & bb & -> & TB & OB).
  set (g := para_front f ap off) in *.
  assert (G0 : 0 < g) by (apply para_front_pos; auto).
  assert (G1 : 1 / 10000000 <= g).
  { eapply Rle_trans; [exact Big|]. unfold g, para_front, Rdiv. rewrite Rmult_1_l, (Rmult_comm (/ (4 * f))). apply Rmult_le_compat_r; [left; apply Rinv_0_lt_compat; lra|].
    pose proof (reach_edge ap off A). pose proof (reach_pos ap A). nra. }
  pose proof (para_strict f ap off y z A F I) as WG. fold g in WG. fold w in WG.
  assert (W0 : 0 <= w) by (apply Rmult_le_pos; [nra|left; apply Rinv_0_lt_compat; lra]).
  assert (WE : y * y + z * z = 4 * f * w) by (unfold w; field; lra). clearbody w.
  set (D := w + f) in *. assert (D0 : 0 < D) by (unfold D; lra).
  assert (PA : forall x y' z', placed fa (pt x y' z') <-> in_aperture ap off y' z' /\ - (t + f) <= x <= g - f).
  { intros x y' z'. rewrite (turned_placed _ _ _ _ _ _ _ x y' z' OA TA). rewrite (aperture_solid ap (t + g) p off y' z' _ A ltac:(lra) Ep).
    split; intros [J K]; (split; [exact J|lra]). }
  assert (PB : forall x y' z', placed fb (pt x y' z') <-> y' * y' + z' * z' <= 4 * f * (x + f) /\ 0 <= x + f <= 15 / 10 * g).
  { intros x y' z'. rewrite (turned_placed _ _ _ _ _ _ _ x y' z' OB TB). unfold solid, pt; cbn [vx vy vz]. replace (x - - f) with (x + f) by ring. rewrite !Rminus_0_r. tauto. }
  assert (RA : forall u, ray_at (c_ray c) (D * u) = pt (u * (w - f)) (u * y) (u * z)).
  { intro u. rewrite R. unfold d. rewrite ray_pt. f_equal; field; lra. }
  assert (RU : forall u, ray_at (c_ray c) u = ray_at (c_ray c) (D * (u / D))) by (intro u; f_equal; field; lra).
  assert (RB : forall u, placed fb (ray_at (c_ray c) (D * u)) <-> (u - 1) * (u * w + f) <= 0 /\ 0 <= u * (w - f) + f <= 15 / 10 * g).
  { intro u. rewrite RA, PB. replace (u * y * (u * y) + u * z * (u * z)) with (u * u * (4 * f * w)) by (rewrite <- WE; ring).
    replace ((u - 1) * (u * w + f)) with (u * u * w - (u * (w - f) + f)) by ring.
    split; intros [J K]; (split; [|exact K]).
    - assert (4 * f * (u * u * w) <= 4 * f * (u * (w - f) + f)) by lra. apply Rmult_le_reg_l in H; lra.
    - assert (4 * f * (u * u * w) <= 4 * f * (u * (w - f) + f)) by (apply Rmult_le_compat_l; lra). lra. }
  assert (NE : near (fun u => placed fa (ray_at (c_ray c) (D + u)))).
  { eapply near_impl; [|apply near_and; [exact (near_aperture ap off y z (y / D) (z / D) I)|apply near_and;
      [apply (near_line (w - f) ((w - f) / D) (g - f)); lra|apply (near_line' (w - f) ((w - f) / D) (- (t + f))); lra]]].
    intros u [J [K1 K2]]. cbv beta. replace (D + u) with (D * (1 + u / D)) by (field; lra). rewrite RA. apply PA.
    replace ((1 + u / D) * y) with (y + u * (y / D)) by (field; lra). replace ((1 + u / D) * z) with (z + u * (z / D)) by (field; lra). split; [exact J|].
    replace ((1 + u / D) * (w - f)) with (w - f + u * ((w - f) / D)) by (field; lra). lra. }
  destruct NE as (eps & E0 & NE).
  assert (PR : propagate asort [Node i DIFFERENCE b (Leaf fa ba) (Leaf fb bb)] c = (Fin D, s_id fb)).
  { apply (dug_first asort AS i b fa ba fb bb c D eps); auto.
    - rewrite R. unfold d. apply unit_moving.
      transitivity (((w - f) * (w - f) + (y * y + z * z)) / (D * D)); [field; lra|]. rewrite WE. unfold D. field. lra.
    - rewrite R. simpl. split; [|split].
      + unfold clear_dir; cbn [direction]. destruct CT as (Cx & Cy & Cz & _). auto.
      + destruct TA as (-> & _ & -> & _). eapply aperture_good; [exact Ep|exact CT].
      + destruct TB as (-> & _ & -> & _). unfold good_local, clear_ray, ray_map; cbn [direction origin]. unfold d. rewrite tobj_vec. cbn [vx vy vz].
        split; [|exact Logic.I]. split; [exact C2|]. split; [apply CT|exact C4].
    - replace D with (D * 1) by ring. apply RB. split; [lra|]. lra.
    - intros u U. rewrite RU, RB. intros [J _]. assert (1 < u / D) by (apply (Rmult_lt_reg_r D); [lra|]; replace (u / D * D) with u by (field; lra); lra).
      set (v := u / D) in *. clearbody v. assert (0 <= v * w) by (apply Rmult_le_pos; lra). assert (0 < (v - 1) * (v * w + f)) by (apply Rmult_lt_0_compat; lra). lra.
    - destruct (Rle_dec f (15 / 10 * g)) as [FG|FG].
      + exists 0. split; [lra|]. split; [|left; lra]. replace 0 with (D * 0) by ring. apply RB. split; lra.
      + set (u0 := (f - 12 / 10 * g) / (f - w)). assert (U0 : u0 * (f - w) = f - 12 / 10 * g) by (unfold u0; field; lra).
        assert (U1 : 0 < u0 < 1) by (split; nra). clearbody u0.
        exists (D * u0). split; [nra|]. split.
        * apply RB. assert (0 <= u0 * w) by (apply Rmult_le_pos; lra). split; [assert (0 <= (1 - u0) * (u0 * w + f)) by (apply Rmult_le_pos; lra); lra|]. replace (u0 * (w - f) + f) with (12 / 10 * g) by lra. lra.
        * right. intros u U. rewrite RU, RA, PA. intros [_ J].
          assert (u / D <= u0) by (apply (Rmult_le_reg_r D); [lra|]; replace (u / D * D) with u by (field; lra); lra).
          set (v := u / D) in *. clearbody v. assert (u0 * (w - f) <= v * (w - f)) by nra. lra. }
  assert (NC : isclose w (15 / 10 * g) = false).
  { unfold isclose. apply rleb_false. rewrite (Rabs_right (15 / 10 * g)) by lra. rewrite Rabs_left by lra. unfold rtol. pose proof atol_small. lra. }
  destruct (para_normal f (15 / 10 * g) y z w F NC) as (N & N0 & N2 & PN).
  assert (WN : world_normal fb (pt (w - f) y z) = Some (V4 (2 * f / N) (- y / N) (- z / N) 0)).
  { rewrite (turned_normal fb _ _ _ _ _ _ (w - f) y z (V4 (y / N) (z / N) (-2 * f / N) 0) TB).
    - cbn [vx vy vz]. f_equal. f_equal; field; lra.
    - replace (w - f - - f) with w by ring. rewrite !Rminus_0_r. exact PN.
    - reflexivity.
    - unfold unit, vdot; cbn [vx vy vz vw]. transitivity ((y * y + z * z + 4 * (f * f)) / (N * N)); [field; lra|]. rewrite <- N2. field. lra. }
  assert (FW : c_ray (forward D c) = Ray (pt (w - f) y z) d).
  { rewrite (forward_pt c D _ _ _ _ _ _ R). f_equal. f_equal; field; lra. }
  exists (with_direction (V4 1 0 0 0) (forward D c)). split; [|split; [|reflexivity]].
  - exists D, fb. split; [exact PR|]. split; [simpl; auto|]. unfold material_trace. destruct TB as (_ & -> & _). rewrite FW. cbn [origin direction]. rewrite WN.
    f_equal. f_equal. assert (N4 : N * N = 4 * f * D) by (rewrite N2, WE; unfold D; ring).
    assert (DN : vdot d (V4 (2 * f / N) (- y / N) (- z / N) 0) = -2 * f / N).
    { unfold d, vdot; cbn [vx vy vz vw]. transitivity ((2 * f * (w - f) - (y * y + z * z)) / (D * N)); [field; lra|]. rewrite WE. unfold D. field. split; lra. }
    unfold reflect. rewrite DN. unfold d, vsub, vadd, vopp, vscale; cbn [vx vy vz vw].
    assert (K : forall e, -2 * f / N * (2 * (e / N)) = - (e / D)).
    { intro e. transitivity (- (4 * f * e) / (N * N)); [field; lra|]. rewrite N4. field. lra. }
    rewrite !K. f_equal; try (unfold D; field; unfold D in *; lra).
  - unfold with_direction, with_ray; cbn [c_ray origin]. rewrite FW. reflexivity.
Qed.

(** ** A flat mirror with a thickness *)
Lemma thick_flat_mirror : forall asort t ap off, argsort_ok asort -> ap_ok ap -> 3 / 100000000 <= t ->
  built asort (plane_mirror t ap off Mirror) (fun s =>
    forall c sg x y z dx dy dz, c_ray c = Ray (pt x y z) (V4 dx dy dz 0) -> sg = 1 \/ sg = -1 -> 0 < sg * dx -> sg * x < - (t / 2) ->
      clear_towards ap (V4 dx dy dz 0) ->
      let q := (- sg * (t / 2) - x) / dx in
      well_inside ap off (y + q * dy) (z + q * dz) ->
      exists c', bounce asort s c c' /\ direction (c_ray c') = V4 (- dx) dy dz 0 /\ origin (c_ray c') = pt (- sg * (t / 2)) (y + q * dy) (z + q * dz)).
Proof.
  intros asort t ap off AS A T. eapply built_more; [|apply plane_shape; auto; lra].
  intros s TO BC (p & Ep & E) c sg x y z dx dy dz R SG D X CT q W0.
  destruct (erase_leaf _ _ _ _ _ _ _ E TO) as (f & b & -> & TF & OK). assert (Dn : dx <> 0) by nra.
  pose proof (well_inside_in _ _ _ _ A W0) as I0.
  destruct (plate_entry f p Mirror ap off t A ltac:(lra) Ep TF OK x y z dx dy dz sg SG ltac:(lra) D CT I0) as (q' & QQ & HH). fold q in QQ, HH.
  assert (Q : x + q * dx = - sg * (t / 2)) by (unfold q; field; exact Dn).
  assert (Q0 : 0 < q) by (destruct SG; subst sg; nra).
  assert (P0 : propagate asort [Leaf f b] c = (Fin q, s_id f)).
  { apply leaf_first; auto; rewrite R, HH; [left; reflexivity|]. intros u [J|[J|[]]] _; injection J as <-; lra. }
  assert (FW : c_ray (forward q c) = Ray (pt (- sg * (t / 2)) (y + q * dy) (z + q * dz)) (V4 dx dy dz 0)) by (rewrite (forward_pt c q _ _ _ _ _ _ R), Q; reflexivity).
  assert (SGo : - sg = 1 \/ - sg = -1) by (destruct SG; subst sg; [right|left]; ring).
  pose proof (plate_normal f p Mirror ap off t A ltac:(lra) Ep TF _ _ (- sg) SGo T W0) as N0.
  exists (with_direction (V4 (- dx) dy dz 0) (forward q c)). split; [|split; [reflexivity|unfold with_direction, with_ray; cbn [c_ray origin]; rewrite FW; reflexivity]].
  exists q, f. split; [exact P0|]. split; [simpl; auto|]. unfold material_trace. destruct TF as (_ & -> & _). rewrite FW. cbn [origin direction]. rewrite N0.
  f_equal. f_equal. unfold reflect, vsub, vadd, vopp, vscale, vdot; cbn [vx vy vz vw]. destruct SG; subst sg; f_equal; ring.
Qed.
