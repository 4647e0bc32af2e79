(** * PlateFacts: flat mirrors and plane-parallel plates *)
From Coq Require Import Reals Lra Lia List Bool ZArith Psatz.
Import ListNotations.
From Verif Require Import XR XRFacts Arr Lin LinFacts Ops OpsFacts SpecOptics Prim Csg Surf SpecGeom PrimFacts SpecTree CsgProps SpanFacts BoxFacts TreeFacts SurfFacts
  World SpecWorld WorldFacts3 WorldFacts5 WorldProps Tracer SpecTrace FirstHit Components SpecComponents BuildFacts ComponentFacts ComponentFacts2 ComponentFacts3 ComponentOptics MirrorFacts.
Open Scope R_scope.

(** ** The trees *)
Lemma plane_shape : forall asort t ap off m, argsort_ok asort -> ap_ok ap -> 0 <= t ->
  built asort (plane_mirror t ap off m) (fun s => exists p, create_aperture ap t = Some p /\ erase s = TLeaf p m (tw (fst off) (snd off) 0) 1).
Proof.
  intros asort t ap off m AO A T. unfold plane_mirror. destruct (create_aperture_ok ap t A) as (p & Ep). rewrite Ep.
  eapply (built_turned asort _ _ _ (TLeaf p m (mmul (mmove (fst off) (snd off) 0) mid) 1)); [exact AO|cbn [track track_call]; rewrite (aperture_init _ _ _ Ep); trk|reflexivity|reflexivity| |].
  - simpl. split; [eapply aperture_prim_ok; eauto|apply affine_mmul; reflexivity].
  - intros s E _ _. exists p. split; [reflexivity|]. rewrite E. cbn [mv]. rewrite mmul_mid_r, tw_eq. reflexivity.
Qed.
Lemma plate_shape : forall asort r1 r2 t ap m, argsort_ok asort -> ap_ok ap -> 0 <= t -> (r1 = PInf \/ r1 = MInf) -> (r2 = PInf \/ r2 = MInf) ->
  built asort (thick_lens r1 r2 t ap m) (fun s => exists p, create_aperture ap t = Some p /\ erase s = TLeaf p m (tw 0 0 0) 1).
Proof.
  intros asort r1 r2 t ap m AO A T H1 H2. unfold thick_lens.
  assert (FT : lens_full_thickness r1 r2 t ap = Some (t / 2 + t / 2, t / 2 - t / 2)) by (destruct H1, H2; subst; reflexivity).
  rewrite FT. replace (t / 2 + t / 2) with t by field. replace (t / 2 - t / 2) with 0 by ring.
  destruct (create_aperture_ok ap t A) as (p & Ep). rewrite Ep. cbv zeta.
  assert (L1 : forall cv cn l, lens_side cv r1 cn m l = l) by (intros; destruct H1; subst; reflexivity).
  assert (L2 : forall cv cn l, lens_side cv r2 cn m l = l) by (intros; destruct H2; subst; reflexivity).
  rewrite L1, L2. cbn [fst snd].
  eapply (built_turned asort _ _ _ (TLeaf p m (mmul (mmove 0 0 (0 / 2)) mid) 1)); [exact AO|cbn [track track_call]; rewrite (aperture_init _ _ _ Ep); trk|reflexivity|reflexivity| |].
  - simpl. split; [eapply aperture_prim_ok; eauto|apply affine_mmul; reflexivity].
  - intros s E _ _. exists p. split; [reflexivity|]. rewrite E. cbn [mv]. rewrite mmul_mid_r, tw_eq. f_equal. f_equal; lra.
Qed.

(** ** Plates: one aperture part *)
Lemma aperture_convex : forall ap off y0 z0 y1 z1 l, 0 <= l <= 1 -> in_aperture ap off y0 z0 -> in_aperture ap off y1 z1 ->
  in_aperture ap off (y0 + l * (y1 - y0)) (z0 + l * (z1 - z0)).
Proof.
  intros [d|a b] off y0 z0 y1 z1 l L I0 I1; simpl in *.
  - set (Y0 := y0 - fst off) in *. set (Y1 := y1 - fst off) in *. set (Z0 := z0 - snd off) in *. set (Z1 := z1 - snd off) in *.
    replace (y0 + l * (y1 - y0) - fst off) with (Y0 + l * (Y1 - Y0)) by (unfold Y0, Y1; ring).
    replace (z0 + l * (z1 - z0) - snd off) with (Z0 + l * (Z1 - Z0)) by (unfold Z0, Z1; ring).
    replace ((Y0 + l * (Y1 - Y0)) * (Y0 + l * (Y1 - Y0)) + (Z0 + l * (Z1 - Z0)) * (Z0 + l * (Z1 - Z0))) with
      ((1 - l) * (Y0 * Y0 + Z0 * Z0) + l * (Y1 * Y1 + Z1 * Z1) - l * (1 - l) * ((Y1 - Y0) * (Y1 - Y0) + (Z1 - Z0) * (Z1 - Z0))) by ring.
    assert (0 <= l * (1 - l) * ((Y1 - Y0) * (Y1 - Y0) + (Z1 - Z0) * (Z1 - Z0))).
    { apply Rmult_le_pos; [apply Rmult_le_pos; lra|apply Rplus_le_le_0_compat; apply Rle_0_sqr]. }
    assert ((1 - l) * (Y0 * Y0 + Z0 * Z0) <= (1 - l) * (d / 2 * (d / 2))) by (apply Rmult_le_compat_l; lra).
    assert (l * (Y1 * Y1 + Z1 * Z1) <= l * (d / 2 * (d / 2))) by (apply Rmult_le_compat_l; lra). lra.
  - destruct I0 as [Y0 Z0], I1 as [Y1 Z1].
    assert (K : forall u v c, Rabs (u - c) <= v -> - v <= u - c <= v) by (intros u v c; unfold Rabs; destruct (Rcase_abs (u - c)); lra).
    apply K in Y0. apply K in Y1. apply K in Z0. apply K in Z1. split; apply Rabs_le; nra.
Qed.
Section Plate.
  Variables (f : surf) (p : prim) (m : material) (ap : aperture_arg) (off : R * R) (t : R).
  Hypothesis A : ap_ok ap.
  Hypothesis T : 0 <= t.
  Hypothesis Ep : create_aperture ap t = Some p.
  Hypothesis TF : turned_surf f p m (fst off) (snd off) 0 1.
  Hypothesis OK : surf_ok f.
  Lemma plate_placed : forall x y z, placed f (pt x y z) <-> in_aperture ap off y z /\ - (t / 2) <= x <= t / 2.
  Proof.
    intros x y z. rewrite (turned_placed _ _ _ _ _ _ _ x y z OK TF). rewrite (aperture_solid ap t p off y z _ A T Ep). rewrite Rminus_0_r. tauto.
  Qed.
  Lemma plate_hits : forall x y z dx dy dz sg, sg = 1 \/ sg = -1 -> 0 < t -> 0 < sg * dx -> clear_towards ap (V4 dx dy dz 0) ->
    let q := (- sg * (t / 2) - x) / dx in let q' := (sg * (t / 2) - x) / dx in
    in_aperture ap off (y + q * dy) (z + q * dz) -> in_aperture ap off (y + q' * dy) (z + q' * dz) ->
    surf_hits f (Ray (pt x y z) (V4 dx dy dz 0)) = [Fin q; Fin q'].
  Proof.
    intros x y z dx dy dz sg SG T0 D CT q q' I I'. assert (Dn : dx <> 0) by nra.
    assert (Q : x + q * dx = - sg * (t / 2)) by (unfold q; field; exact Dn).
    assert (Q' : x + q' * dx = sg * (t / 2)) by (unfold q'; field; exact Dn).
    assert (QQ : q < q') by (destruct SG; subst sg; nra).
    assert (PL : forall u, placed f (ray_at (Ray (pt x y z) (V4 dx dy dz 0)) u) <-> q <= u <= q').
    { intro u. rewrite ray_pt, plate_placed. split.
      - intros [_ B]. destruct SG; subst sg; split; nra.
      - intro B. split; [|destruct SG; subst sg; nra].
        pose proof (aperture_convex ap off _ _ _ _ ((u - q) / (q' - q)) ltac:(split; [apply Rmult_le_pos; [lra|left; apply Rinv_0_lt_compat; lra]|apply (Rmult_le_reg_r (q' - q)); [lra|unfold Rdiv; rewrite Rmult_assoc, Rinv_l by lra; lra]]) I I') as C.
        replace (y + u * dy) with (y + q * dy + (u - q) / (q' - q) * (y + q' * dy - (y + q * dy))) by (field; lra).
        replace (z + u * dz) with (z + q * dz + (u - q) / (q' - q) * (z + q' * dz - (z + q * dz))) by (field; lra). exact C. }
    destruct (surf_chord f (Ray (pt x y z) (V4 dx dy dz 0)) OK) as [(t0 & t1 & H & L & S)|[H S]].
    - split; [reflexivity|]. split; [reflexivity|]. intros (X & _ & _). cbn [direction vx] in X. contradiction.
    - destruct TF as (-> & _ & -> & _). eapply aperture_good; eauto.
    - rewrite H. assert (E0 : q <= t0 <= q') by (apply PL, S; lra). assert (E1 : q <= t1 <= q') by (apply PL, S; lra).
      assert (F0 : t0 <= q <= t1) by (apply S, PL; lra). assert (F1 : t0 <= q' <= t1) by (apply S, PL; lra).
      do 2 f_equal; [|f_equal]; f_equal; lra.
    - exfalso. assert (q = q'); [|lra]. apply S; apply PL; lra.
  Qed.
  Lemma plate_entry : forall x y z dx dy dz sg, sg = 1 \/ sg = -1 -> 0 < t -> 0 < sg * dx -> clear_towards ap (V4 dx dy dz 0) ->
    let q := (- sg * (t / 2) - x) / dx in
    in_open_aperture ap off (y + q * dy) (z + q * dz) ->
    exists q', q < q' /\ surf_hits f (Ray (pt x y z) (V4 dx dy dz 0)) = [Fin q; Fin q'].
  Proof.
    intros x y z dx dy dz sg SG T0 D CT q I. assert (Dn : dx <> 0) by nra.
    assert (Q : x + q * dx = - sg * (t / 2)) by (unfold q; field; exact Dn).
    assert (NE : near (fun u => in_aperture ap off (y + q * dy + u * dy) (z + q * dz + u * dz) /\ u * (sg * dx) <= t)).
    { apply near_and; [apply near_aperture; exact I|]. eapply near_impl; [|apply (near_line 0 (sg * dx) t); lra]. intros u; cbv beta; lra. }
    destruct NE as (eps & E0 & NE).
    assert (PL : forall u, 0 <= u <= eps -> placed f (ray_at (Ray (pt x y z) (V4 dx dy dz 0)) (q + u))).
    { intros u U. rewrite ray_pt, plate_placed. destruct (NE u) as [J B]; [rewrite Rabs_right; lra|].
      replace (y + (q + u) * dy) with (y + q * dy + u * dy) by ring. replace (z + (q + u) * dz) with (z + q * dz + u * dz) by ring. split; [exact J|].
      replace (x + (q + u) * dx) with (- sg * (t / 2) + u * dx) by (rewrite <- Q; ring). destruct SG; subst sg; split; nra. }
    assert (NB : forall u, u < q -> ~ placed f (ray_at (Ray (pt x y z) (V4 dx dy dz 0)) u)).
    { intros u U. rewrite ray_pt, plate_placed. intros [_ B]. destruct SG; subst sg; nra. }
    destruct (surf_chord f (Ray (pt x y z) (V4 dx dy dz 0)) OK) as [(t0 & t1 & H & L & S)|[H S]].
    - split; [reflexivity|]. split; [reflexivity|]. intros (X & _ & _). cbn [direction vx] in X. contradiction.
    - destruct TF as (-> & _ & -> & _). eapply aperture_good; eauto.
    - assert (F0 : t0 <= q + 0 <= t1) by (apply S, PL; lra). assert (F1 : t0 <= q + eps <= t1) by (apply S, PL; lra).
      assert (t0 = q). { destruct (Rlt_dec t0 q) as [B|B]; [|lra]. exfalso. apply (NB t0 B), S. lra. }
      subst t0. exists t1. split; [lra|exact H].
    - exfalso. assert (q + 0 = q + eps); [|lra]. apply S; apply PL; lra.
  Qed.
  Lemma plate_normal : forall y z sg, sg = 1 \/ sg = -1 -> 3 / 100000000 <= t -> well_inside ap off y z ->
    world_normal f (pt (sg * (t / 2)) y z) = Some (V4 sg 0 0 0).
  Proof.
    intros y z sg SG TB I.
    rewrite (turned_normal f p m _ _ _ _ _ y z (V4 0 0 sg 0) TF).
    - cbn [vx vy vz]. f_equal. f_equal; ring.
    - rewrite Rminus_0_r. set (lz := sg * (t / 2)).
      assert (FAR : sg = -1 -> isclose lz (t / 2) = false).
      { intro E. unfold isclose, lz. subst sg. apply rleb_false. rewrite (Rabs_right (t / 2)) by lra. rewrite Rabs_left by lra. unfold rtol. pose proof atol_small. lra. }
      assert (NU : forall v, vdot v v = 1 -> vnormalize v = Some v) by (intros v V; apply vnormalize_unit; exact V).
      destruct ap as [d|a b]; simpl in Ep.
      + injection Ep as <-. unfold prim_normal, cylinder_normal, pt; cbn [vx vy vz]. replace (- t / 2) with (- (t / 2)) by field. destruct SG as [E|E].
        * replace (isclose lz (t / 2)) with true by (unfold lz; rewrite E, Rmult_1_l, isclose_refl; reflexivity). rewrite E. apply NU. unfold vdot; cbn [vx vy vz vw]; ring.
        * rewrite (FAR E). replace (isclose lz (- (t / 2))) with true by (unfold lz; rewrite E; replace (-1 * (t / 2)) with (- (t / 2)) by ring; rewrite isclose_refl; reflexivity).
          rewrite E. apply NU. unfold vdot; cbn [vx vy vz vw]; ring.
      + destruct (rltb 0 a && rltb 0 b)%bool; [|discriminate]. injection Ep as <-. simpl in A, I.
        assert (EDGE : forall w l, 0 < l -> Rabs w < l / 2 - (atol + rtol * (l / 2)) -> cube_normal_axis (Rmin (- l / 2) (l / 2)) (Rmax (- l / 2) (l / 2)) w = 0).
        { intros w l L W. rewrite Rmin_left, Rmax_right by lra. unfold cube_normal_axis.
          assert (W' : - (l / 2 - (atol + rtol * (l / 2))) < w < l / 2 - (atol + rtol * (l / 2))) by (unfold Rabs in W; destruct (Rcase_abs w); lra).
          assert (isclose w (l / 2) = false) as ->. { unfold isclose. apply rleb_false. rewrite (Rabs_right (l / 2)) by lra. rewrite Rabs_left; pose proof atol_pos; unfold rtol in *; lra. }
          assert (isclose w (- l / 2) = false) as ->. { unfold isclose. apply rleb_false. rewrite (Rabs_left (- l / 2)) by lra. rewrite Rabs_right; pose proof atol_pos; unfold rtol in *; lra. }
          reflexivity. }
        unfold prim_normal, cube_normal, pt; cbn [vx vy vz]. rewrite !EDGE by lra. rewrite Rmin_left, Rmax_right by lra. unfold cube_normal_axis.
        replace (- t / 2) with (- (t / 2)) by field. destruct SG as [E|E].
        * replace (isclose lz (t / 2)) with true by (unfold lz; rewrite E, Rmult_1_l, isclose_refl; reflexivity). rewrite E. apply NU. unfold vdot; cbn [vx vy vz vw]; ring.
        * rewrite (FAR E). replace (isclose lz (- (t / 2))) with true by (unfold lz; rewrite E; replace (-1 * (t / 2)) with (- (t / 2)) by ring; rewrite isclose_refl; reflexivity).
          rewrite E. apply NU. unfold vdot; cbn [vx vy vz vw]; ring.
    - reflexivity.
    - unfold unit, vdot; cbn [vx vy vz vw]. destruct SG; subst sg; lra.
  Qed.
End Plate.
Lemma well_inside_in : forall ap off y z, ap_ok ap -> well_inside ap off y z -> in_open_aperture ap off y z.
Proof.
  intros [d|a b] off y z A W; [exact W|]. simpl in *. pose proof atol_pos. unfold rtol in W. split; lra.
Qed.

(** ** Refraction at a face and back *)
Lemma enter_face : forall dx dy dz sg n, sg = 1 \/ sg = -1 -> dx * dx + dy * dy + dz * dz = 1 -> 0 < sg * dx -> 0 < n -> 1 - dx * dx < n * n ->
  refract (V4 dx dy dz 0) (V4 (- sg) 0 0 0) 1 n 1 = Some (V4 (sg * sqrt (1 - (1 - dx * dx) / (n * n))) (dy / n) (dz / n) 0, n).
Proof.
  intros dx dy dz sg n SG U D N TR. unfold refract.
  assert (S2 : sg * sg = 1) by (destruct SG; subst; ring).
  rewrite vnormalize_unit by (unfold vdot; cbn [vx vy vz vw]; lra).
  assert (E1 : vdot (V4 dx dy dz 0) (V4 (- sg) 0 0 0) = - (sg * dx)) by (unfold vdot; cbn [vx vy vz vw]; ring).
  assert (E2 : vdot (V4 dx dy dz 0) (vopp (V4 (- sg) 0 0 0)) = sg * dx) by (unfold vdot, vopp, vscale; cbn [vx vy vz vw]; ring).
  rewrite E1, E2. replace (rltb 0 (- (sg * dx))) with false by (symmetry; apply rltb_false; lra).
  destruct (Req_EM_T n 0); [lra|].
  assert (ER : 1 - 1 / n * (1 / n) * (1 - sg * dx * (sg * dx)) = 1 - (1 - dx * dx) / (n * n)).
  { replace (sg * dx * (sg * dx)) with (sg * sg * (dx * dx)) by ring. rewrite S2. field. lra. }
  rewrite ER. set (rad := 1 - (1 - dx * dx) / (n * n)).
  assert (R0 : 0 < rad).
  { unfold rad. replace (1 - (1 - dx * dx) / (n * n)) with ((n * n - (1 - dx * dx)) / (n * n)) by (field; lra). apply Rdiv_lt_0_compat; nra. }
  replace (rltb 0 rad) with true by (symmetry; apply rltb_true; exact R0). rewrite Rmax_right by lra.
  assert (SS := sqrt_sqrt rad ltac:(lra)). set (k := sqrt rad) in *.
  assert (EV : vadd (vscale (1 / n) (V4 dx dy dz 0)) (vscale (1 / n * (sg * dx) - k) (V4 (- sg) 0 0 0)) = V4 (sg * k) (dy / n) (dz / n) 0).
  { unfold vadd, vscale; cbn [vx vy vz vw]. f_equal; try (field; lra).
    replace (1 / n * dx + (1 / n * (sg * dx) - k) * - sg) with (1 / n * dx * (1 - sg * sg) + sg * k) by ring. rewrite S2. ring. }
  rewrite EV. rewrite vnormalize_unit; [reflexivity|]. unfold vdot; cbn [vx vy vz vw].
  replace (sg * k * (sg * k) + dy / n * (dy / n) + dz / n * (dz / n) + 0 * 0) with (sg * sg * (k * k) + (dy * dy + dz * dz) / (n * n)) by (field; lra).
  rewrite S2, SS. unfold rad. replace (dy * dy + dz * dz) with (1 - dx * dx) by lra. field. lra.
Qed.
Lemma leave_face : forall dx dy dz sg n, sg = 1 \/ sg = -1 -> dx * dx + dy * dy + dz * dz = 1 -> 0 < sg * dx -> 0 < n -> 1 - dx * dx < n * n ->
  refract (V4 (sg * sqrt (1 - (1 - dx * dx) / (n * n))) (dy / n) (dz / n) 0) (V4 sg 0 0 0) n n 1 = Some (V4 dx dy dz 0, 1).
Proof.
  intros dx dy dz sg n SG U D N TR. unfold refract.
  assert (S2 : sg * sg = 1) by (destruct SG; subst; ring).
  set (rad := 1 - (1 - dx * dx) / (n * n)).
  assert (R0 : 0 < rad).
  { unfold rad. replace (1 - (1 - dx * dx) / (n * n)) with ((n * n - (1 - dx * dx)) / (n * n)) by (field; lra). apply Rdiv_lt_0_compat; nra. }
  assert (SS := sqrt_sqrt rad ltac:(lra)). assert (K0 : 0 < sqrt rad) by (apply sqrt_lt_R0; exact R0). set (k := sqrt rad) in *.
  rewrite vnormalize_unit.
  2:{ unfold vdot; cbn [vx vy vz vw].
      replace (sg * k * (sg * k) + dy / n * (dy / n) + dz / n * (dz / n) + 0 * 0) with (sg * sg * (k * k) + (dy * dy + dz * dz) / (n * n)) by (field; lra).
      rewrite S2, SS. unfold rad. replace (dy * dy + dz * dz) with (1 - dx * dx) by lra. field. lra. }
  assert (E1 : vdot (V4 (sg * k) (dy / n) (dz / n) 0) (V4 sg 0 0 0) = k) by (unfold vdot; cbn [vx vy vz vw]; transitivity (sg * sg * k); [ring|rewrite S2; ring]).
  rewrite E1. replace (rltb 0 k) with true by (symmetry; apply rltb_true; exact K0).
  destruct (Req_EM_T 1 0); [lra|].
  assert (ER : 1 - n / 1 * (n / 1) * (1 - k * k) = sg * dx * (sg * dx)).
  { rewrite SS. unfold rad. replace (sg * dx * (sg * dx)) with (sg * sg * (dx * dx)) by ring. rewrite S2. field. lra. }
  rewrite ER. replace (rltb 0 (sg * dx * (sg * dx))) with true by (symmetry; apply rltb_true; nra).
  rewrite Rmax_right by nra. rewrite sqrt_square by lra.
  assert (EV : vadd (vscale (n / 1) (V4 (sg * k) (dy / n) (dz / n) 0)) (vscale (n / 1 * k - sg * dx) (vopp (V4 sg 0 0 0))) = V4 dx dy dz 0).
  { unfold vopp, vadd, vscale; cbn [vx vy vz vw]. f_equal; [|field; lra|field; lra|field; lra]. transitivity (sg * sg * dx); [field|rewrite S2; ring]. }
  rewrite EV. rewrite vnormalize_unit; [reflexivity|]. unfold vdot; cbn [vx vy vz vw]. lra.
Qed.

(** ** The plate *)
Lemma plate_keeps_direction : forall asort r1 r2 t ap idx, argsort_ok asort -> ap_ok ap -> 3 / 100000000 <= t -> (r1 = PInf \/ r1 = MInf) -> (r2 = PInf \/ r2 = MInf) ->
  built asort (thick_lens r1 r2 t ap (Refractor idx)) (fun s =>
    forall c sg n x y z dx dy dz, c_ray c = Ray (pt x y z) (V4 dx dy dz 0) -> c_idx c = 1 -> idx (c_wl c) = Fin n ->
      sg = 1 \/ sg = -1 -> dx * dx + dy * dy + dz * dz = 1 -> 0 < sg * dx -> sg * x < - (t / 2) -> 0 < n -> 1 - dx * dx < n * n ->
      let k := sqrt (1 - (1 - dx * dx) / (n * n)) in
      let q := (- sg * (t / 2) - x) / dx in
      let y0 := y + q * dy in let z0 := z + q * dz in
      let y1 := y0 + t / k * (dy / n) in let z1 := z0 + t / k * (dz / n) in
      clear_towards ap (V4 dx dy dz 0) -> clear_towards ap (V4 (sg * k) (dy / n) (dz / n) 0) ->
      well_inside ap (0, 0) y0 z0 -> well_inside ap (0, 0) y1 z1 ->
      exists c1 c2, bounce asort s c c1 /\ bounce asort s c1 c2 /\
        origin (c_ray c1) = pt (- sg * (t / 2)) y0 z0 /\ origin (c_ray c2) = pt (sg * (t / 2)) y1 z1 /\
        direction (c_ray c1) = V4 (sg * k) (dy / n) (dz / n) 0 /\ c_idx c1 = n /\
        direction (c_ray c2) = direction (c_ray c) /\ c_idx c2 = 1).
Proof.
  intros asort r1 r2 t ap idx AS A T H1 H2. eapply built_more; [|apply plate_shape; auto; lra].
  intros s TO BC (p & Ep & E) c sg n x y z dx dy dz R CI IX SG U D X N TR k q y0 z0 y1 z1 CT CT1 W0 W1.
  destruct (erase_leaf _ _ _ _ _ _ _ E TO) as (f & b & -> & TF & OK).
  assert (TF' : turned_surf f p (Refractor idx) (fst (0, 0)) (snd (0, 0)) 0 1) by exact TF.
  assert (Dn : dx <> 0) by nra.
  assert (R0 : 0 < 1 - (1 - dx * dx) / (n * n)).
  { replace (1 - (1 - dx * dx) / (n * n)) with ((n * n - (1 - dx * dx)) / (n * n)) by (field; lra). apply Rdiv_lt_0_compat; nra. }
  assert (K0 : 0 < k) by (apply sqrt_lt_R0; exact R0).
  pose proof (well_inside_in _ _ _ _ A W0) as I0. pose proof (well_inside_in _ _ _ _ A W1) as I1.
  assert (S2 : sg * sg = 1) by (destruct SG; subst; ring).
  (* entering *)
  destruct (plate_entry f p (Refractor idx) ap (0, 0) t A ltac:(lra) Ep TF' OK x y z dx dy dz sg SG ltac:(lra) D CT I0) as (q' & QQ & HH). fold q in QQ, HH.
  assert (Q : x + q * dx = - sg * (t / 2)) by (unfold q; field; exact Dn).
  assert (Q0 : 0 < q) by (destruct SG; subst sg; nra).
  assert (P0 : propagate asort [Leaf f b] c = (Fin q, s_id f)).
  { apply leaf_first; auto; rewrite R, HH; [left; reflexivity|]. intros u [J|[J|[]]] _; injection J as <-; lra. }
  assert (FW : c_ray (forward q c) = Ray (pt (- sg * (t / 2)) y0 z0) (V4 dx dy dz 0)) by (rewrite (forward_pt c q _ _ _ _ _ _ R), Q; reflexivity).
  assert (SGo : - sg = 1 \/ - sg = -1) by (destruct SG; subst sg; [right|left]; ring).
  pose proof (plate_normal f p (Refractor idx) ap (0, 0) t A ltac:(lra) Ep TF' y0 z0 (- sg) SGo T W0) as N0.
  set (d1 := V4 (sg * k) (dy / n) (dz / n) 0) in *.
  set (c1 := with_idx n (with_direction d1 (forward q c))).
  assert (M0 : material_trace f (forward q c) = Some c1).
  { unfold material_trace. destruct TF as (_ & -> & _). rewrite FW. cbn [origin direction]. rewrite N0.
    change (c_wl (forward q c)) with (c_wl c). rewrite IX. change (c_idx (forward q c)) with (c_idx c). rewrite CI. unfold world_index.
    rewrite enter_face by auto. reflexivity. }
  assert (R1 : c_ray c1 = Ray (pt (- sg * (t / 2)) y0 z0) d1).
  { unfold c1, with_idx, with_direction, with_ray; cbn [c_ray]. rewrite FW. reflexivity. }
  (* leaving *)
  assert (K1 : 0 < sg * (sg * k)) by (rewrite <- Rmult_assoc, S2; lra).
  assert (G0 : (- sg * (t / 2) - - sg * (t / 2)) / (sg * k) = 0) by (unfold Rdiv; rewrite Rminus_diag_eq by reflexivity; ring).
  assert (Sn : sg <> 0) by (destruct SG; lra).
  assert (G1 : (sg * (t / 2) - - sg * (t / 2)) / (sg * k) = t / k) by (field; split; [lra|exact Sn]).
  pose proof (plate_hits f p (Refractor idx) ap (0, 0) t A ltac:(lra) Ep TF' OK (- sg * (t / 2)) y0 z0 (sg * k) (dy / n) (dz / n) sg SG ltac:(lra) K1 CT1) as HL.
  cbv zeta in HL. rewrite G0, G1, !Rmult_0_l, !Rplus_0_r in HL. specialize (HL (open_aperture _ _ _ _ I0) (open_aperture _ _ _ _ I1)).
  assert (TK : 0 < t / k) by (apply Rdiv_lt_0_compat; lra).
  assert (P1 : propagate asort [Leaf f b] c1 = (Fin (t / k), s_id f)).
  { apply leaf_first; auto; rewrite R1; unfold d1; rewrite HL; [right; left; reflexivity|]. intros u [J|[J|[]]] P; injection J as <-; lra. }
  assert (FW1 : c_ray (forward (t / k) c1) = Ray (pt (sg * (t / 2)) y1 z1) d1).
  { rewrite (forward_pt c1 (t / k) _ _ _ _ _ _ R1). f_equal. fold y1 z1. unfold pt. f_equal. field. lra. }
  pose proof (plate_normal f p (Refractor idx) ap (0, 0) t A ltac:(lra) Ep TF' y1 z1 sg SG T W1) as N1.
  exists c1, (with_idx 1 (with_direction (V4 dx dy dz 0) (forward (t / k) c1))).
  split; [exists q, f; split; [exact P0|split; [simpl; auto|exact M0]]|].
  split; [exists (t / k), f; split; [exact P1|split; [simpl; auto|]]|].
  { unfold material_trace. destruct TF as (_ & -> & _). rewrite FW1. cbn [origin direction]. rewrite N1.
    change (c_wl (forward (t / k) c1)) with (c_wl c). rewrite IX. change (c_idx (forward (t / k) c1)) with n. unfold world_index, d1, k.
    rewrite leave_face by auto. reflexivity. }
  split; [rewrite R1; reflexivity|]. split; [|split; [rewrite R1; reflexivity|split; [reflexivity|split; [rewrite R; reflexivity|reflexivity]]]].
  unfold with_idx, with_direction, with_ray; cbn [c_ray origin]. rewrite FW1. reflexivity.
Qed.

(** ** Mirrors of zero thickness *)
Lemma thin_round_hit : forall asort d off, argsort_ok asort -> 0 < d ->
  built asort (plane_mirror 0 (Round d) off Mirror) (fun s =>
    forall c q x y z dx dy dz, c_ray c = Ray (pt x y z) (V4 dx dy dz 0) -> clear_towards (Round d) (V4 dx dy dz 0) -> dx <> 0 ->
      0 < q -> x + q * dx = 0 -> in_aperture (Round d) off (y + q * dy) (z + q * dz) ->
      exists c', bounce asort s c c' /\ direction (c_ray c') = V4 (- dx) dy dz 0 /\ origin (c_ray c') = pt 0 (y + q * dy) (z + q * dz)).
Proof.
  intros asort d off AS D0. assert (A : ap_ok (Round d)) by exact D0. eapply built_more; [|apply plane_shape; auto; lra].
  intros s TO BC (p & Ep & E) c q x y z dx dy dz R CT Dn Q0 Q I.
  destruct (erase_leaf _ _ _ _ _ _ _ E TO) as (f & b & -> & TF & OK).
  assert (T0 : 0 <= 0) by lra.
  pose proof (plate_placed f p Mirror (Round d) off 0 A T0 Ep TF OK) as PP.
  assert (PL : forall u, placed f (ray_at (c_ray c) u) <-> u = q).
  { intro u. rewrite R, ray_pt, PP. split.
    - intros [_ B]. assert (Z : (u - q) * dx = 0) by lra. apply Rmult_integral in Z. destruct Z; [lra|contradiction].
    - intros ->. split; [exact I|lra]. }
  assert (WR : world_ray (c_ray c)).
  { rewrite R. split; [reflexivity|]. split; [reflexivity|]. intros (X & _ & _). cbn [direction vx] in X. contradiction. }
  assert (GL : good_local (s_prim f) (ray_map (s_obj f) (c_ray c))).
  { rewrite R. destruct TF as (-> & _ & -> & _). eapply aperture_good; eauto. }
  assert (HH : surf_hits f (c_ray c) = [Fin q; Fin q]).
  { rewrite surf_hits_alt. pose proof (local_moving f (c_ray c) OK WR) as M. destruct TF as (TF1 & TF2 & TF3 & TF4).
    rewrite TF1 in *. simpl in Ep. injection Ep as <-. cbn [prim_hits]. destruct GL as [GL _].
    assert (LH : - 0 / 2 <= 0 / 2) by lra.
    assert (PS : forall u, solid (PCylinder (d / 2) (- 0 / 2) (0 / 2) true) (ray_at (ray_map (s_obj f) (c_ray c)) u) <-> u = q).
    { intro u. rewrite <- PL. rewrite ray_at_map. rewrite <- TF1. symmetry. apply placed_local; auto. apply ray_at_w; apply WR. }
    destruct (cylinder_hits_exact (d / 2) (- 0 / 2) (0 / 2) true _ M LH GL) as [(t0 & t1 & H & L & S)|[H S]].
    - assert (t0 = q) by (apply PS, S; lra). assert (t1 = q) by (apply PS, S; lra). subst t0 t1. rewrite H. unfold sort2; cbn [fst snd].
      destruct (xsle (Fin q) (Fin q)); reflexivity.
    - exfalso. apply (S q), PS. reflexivity. }
  assert (P0 : propagate asort [Leaf f b] c = (Fin q, s_id f)).
  { apply leaf_first; auto; rewrite HH; [left; reflexivity|]. intros u [J|[J|[]]] _; injection J as <-; lra. }
  assert (FW : c_ray (forward q c) = Ray (pt 0 (y + q * dy) (z + q * dz)) (V4 dx dy dz 0)) by (rewrite (forward_pt c q _ _ _ _ _ _ R), Q; reflexivity).
  assert (N0 : world_normal f (pt 0 (y + q * dy) (z + q * dz)) = Some (V4 1 0 0 0)).
  { rewrite (turned_normal f _ _ _ _ _ _ _ _ _ (V4 0 0 1 0) TF).
    - cbn [vx vy vz]. f_equal. f_equal; ring.
    - simpl in Ep. injection Ep as <-. unfold prim_normal, cylinder_normal, pt; cbn [vx vy vz]. replace (0 - 0) with (0 / 2) by lra. rewrite isclose_refl.
      apply vnormalize_unit. unfold vdot; cbn [vx vy vz vw]; ring.
    - reflexivity.
    - unfold unit, vdot; cbn [vx vy vz vw]; ring. }
  exists (with_direction (V4 (- dx) dy dz 0) (forward q c)). split; [|split; [reflexivity|unfold with_direction, with_ray; cbn [c_ray origin]; rewrite FW; reflexivity]].
  exists q, f. split; [exact P0|]. split; [simpl; auto|]. unfold material_trace. destruct TF as (_ & -> & _). rewrite FW. cbn [origin direction]. rewrite N0.
  f_equal. f_equal. unfold reflect, vsub, vadd, vopp, vscale, vdot; cbn [vx vy vz vw]. f_equal; ring.
Qed.
Lemma cube_hits_strict : forall b r t, sort2 (cube_hits b r) <> (Fin t, Fin t).
Proof.
  intros b r t. unfold cube_hits. destruct (cube_axis_hits (spanx b) _ _) as [x0 x1], (cube_axis_hits (spany b) _ _) as [y0 y1], (cube_axis_hits (spanz b) _ _) as [z0 z1].
  cbv zeta. set (lo := xmax (xmax x0 y0) z0). set (hi := xmin (xmin x1 y1) z1). destruct (xltb lo hi) eqn:E; [|intro H; unfold sort2 in H; cbn [fst snd] in H; destruct (xsle PInf PInf); discriminate].
  intro H. assert (lo = Fin t /\ hi = Fin t) as [L H'].
  { unfold sort2 in H; cbn [fst snd] in H. destruct (xsle lo hi); injection H; auto. }
  rewrite L, H' in E. simpl in E. apply rltb_true in E. lra.
Qed.
Lemma thin_rect_missed : forall asort a b off m, argsort_ok asort -> 0 < a -> 0 < b ->
  built asort (plane_mirror 0 (Pair a b) off m) (fun s =>
    forall c x y z dx dy dz, c_ray c = Ray (pt x y z) (V4 dx dy dz 0) -> clear_towards (Pair a b) (V4 dx dy dz 0) -> dx <> 0 ->
      propagate asort [s] c = (PInf, (-1)%Z)).
Proof.
  intros asort a b off m AS A0 B0. assert (A : ap_ok (Pair a b)) by (split; auto). eapply built_more; [|apply plane_shape; auto; lra].
  intros s TO BC (p & Ep & E) c x y z dx dy dz R CT Dn.
  destruct (erase_leaf _ _ _ _ _ _ _ E TO) as (f & bx & -> & TF & OK).
  assert (T0 : 0 <= 0) by lra.
  pose proof (plate_placed f p m (Pair a b) off 0 A T0 Ep TF OK) as PP.
  assert (HH : surf_hits f (c_ray c) = [PInf; PInf]).
  { destruct (surf_chord f (c_ray c) OK) as [(t0 & t1 & H & L & S)|[H S]]; [| | |exact H].
    - rewrite R. split; [reflexivity|]. split; [reflexivity|]. intros (X & _ & _). cbn [direction vx] in X. contradiction.
    - rewrite R. destruct TF as (-> & _ & -> & _). eapply aperture_good; eauto.
    - exfalso. assert (Z : (t1 - t0) * dx = 0).
      { assert (P0 : placed f (ray_at (c_ray c) t0)) by (apply S; lra). assert (P1 : placed f (ray_at (c_ray c) t1)) by (apply S; lra).
        rewrite R, ray_pt, PP in P0, P1. lra. }
      apply Rmult_integral in Z. destruct Z as [Z|]; [|contradiction]. assert (t1 = t0) by lra. subst t1.
      rewrite surf_hits_alt in H. destruct TF as (TF1 & _). rewrite TF1 in H. simpl in Ep. destruct (rltb 0 a && rltb 0 b)%bool; [|discriminate]. injection Ep as <-.
      cbn [prim_hits] in H. injection H as H1 H2. eapply cube_hits_strict. rewrite (surjective_pairing (sort2 _)), H1, H2. reflexivity. }
  unfold propagate. cbn [fold_left]. unfold propagate_shape. cbn [shape_intersect]. rewrite HH. reflexivity.
Qed.
