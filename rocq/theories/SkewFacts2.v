(** * SkewFacts2: which placed surfaces have normals that meet the x axis *)
From Coq Require Import Reals Lra Lia List Bool ZArith Psatz.
Import ListNotations.
From Verif Require Import XR XRFacts Arr Lin LinFacts Ops OpsFacts SpecOptics Prim Csg Surf SpecGeom SpecTree CsgProps World SpecWorld Components SpecComponents Tracer SpecTrace
  SpecMotion SpecSymmetry SymmetryFacts SpecSkew.
Open Scope R_scope.

Definition ez : v4 := V4 0 0 1 0.
Definition oo : v4 := V4 0 0 0 1.
Lemma normalize_scale : forall v n, vnormalize v = Some n -> exists k, n = vscale k v.
Proof. intros v n. unfold vnormalize. destruct (Req_EM_T (vdot v v) 0); [discriminate|]. intro E. injection E as <-. eauto. Qed.
Lemma radial_normal : forall p x n, (forall a b, p <> PCube a b) -> prim_normal p x = Some n ->
  exists a b, n = vadd (vscale a (vset_w x 0)) (vscale b ez) /\ ((forall r, p <> PSphere r) \/ b = 0).
Proof.
  intros p x n NC H. destruct x as [x1 x2 x3 x4].
  assert (Z : forall k, vscale k ez = vadd (vscale 0 (vset_w (V4 x1 x2 x3 x4) 0)) (vscale k ez)).
  { intro k. unfold vadd, vscale, vset_w, ez; cbn [vx vy vz vw]. f_equal; ring. }
  assert (P : forall k c, vscale k (V4 x1 x2 c 0) = vadd (vscale k (vset_w (V4 x1 x2 x3 x4) 0)) (vscale (k * (c - x3)) ez)).
  { intros k c. unfold vadd, vscale, vset_w, ez; cbn [vx vy vz vw]. f_equal; ring. }
  destruct p as [r|r lo hi c|c0 c1|f h|w l]; cbn [prim_normal] in H.
  - apply normalize_scale in H. destruct H as (k & ->). exists k, 0. split; [|right; reflexivity]. unfold vadd, vscale, vset_w, ez; cbn [vx vy vz vw]. f_equal; ring.
  - unfold cylinder_normal in H. cbv zeta in H. cbn [vx vy vz] in H.
    destruct c; [destruct (isclose x3 hi); [|destruct (isclose x3 lo)]|]; apply normalize_scale in H; destruct H as (k & ->).
    + exists 0, k. split; [apply Z|left; discriminate].
    + exists 0, (- k). split; [|left; discriminate]. rewrite <- Z. unfold vscale, ez; cbn [vx vy vz vw]. f_equal; ring.
    + eexists k, _. split; [apply P|left; discriminate].
    + eexists k, _. split; [apply P|left; discriminate].
  - destruct (NC c0 c1 eq_refl).
  - unfold paraboloid_normal in H. cbv zeta in H. cbn [vx vy vz] in H. destruct (isclose x3 h); apply normalize_scale in H; destruct H as (k & ->).
    + exists 0, k. split; [apply Z|left; discriminate].
    + eexists k, _. split; [apply P|left; discriminate].
  - injection H as <-. exists 0, 1. split; [|left; discriminate]. rewrite <- Z. unfold plane_normal, vscale, ez; cbn [vx vy vz vw]. f_equal; ring.
Qed.

Lemma affine_w : forall m v, affine m -> vw (mapply m v) = vw v.
Proof. intros m v A. unfold mapply; cbn [vw]. unfold affine in A. rewrite A. unfold vdot; cbn. ring. Qed.
Lemma isometry_back : forall w o n, SpecMotion.isometry w -> is_inverse w o -> vw n = 0 -> vset_w (mapply (mtrans o) n) 0 = mapply w n.
Proof.
  intros w o n (A & _ & K) (I1 & I2) N.
  assert (AD : forall m u v, vdot (mapply (mtrans m) u) v = vdot u (mapply m v)).
  { intros [[a1 a2 a3 a4] [b1 b2 b3 b4] [c1 c2 c3 c4] [d1 d2 d3 d4]] [u1 u2 u3 u4] [v1 v2 v3 v4]. unfold mtrans, mapply, vdot; cbn. ring. }
  assert (OW : forall v, mapply w (mapply o v) = v).
  { intro v. rewrite <- mapply_mmul. first [rewrite I1|rewrite I2]. apply mapply_mid. }
  assert (AO : forall v, vw v = 0 -> vw (mapply o v) = 0) by (intros v V; rewrite <- (affine_w w _ A), OW; exact V).
  assert (D : forall v, vw v = 0 -> vdot (vset_w (mapply (mtrans o) n) 0) v = vdot (mapply w n) v).
  { intros v V. transitivity (vdot (mapply (mtrans o) n) v).
    - unfold vdot, vset_w; cbn [vx vy vz vw]. rewrite V. ring.
    - rewrite AD. rewrite <- (K n (mapply o v)) by auto. rewrite OW. reflexivity. }
  pose proof (D (V4 1 0 0 0) eq_refl) as D1. pose proof (D (V4 0 1 0 0) eq_refl) as D2. pose proof (D (V4 0 0 1 0) eq_refl) as D3.
  pose proof (affine_w w n A) as W. rewrite N in W. revert D1 D2 D3 W. generalize (mapply w n), (mapply (mtrans o) n). intros [a1 a2 a3 a4] [b1 b2 b3 b4].
  unfold vdot, vset_w; cbn [vx vy vz vw]. intros. f_equal; lra.
Qed.
Lemma turning_origin : forall g, turning g -> mapply g oo = oo.
Proof.
  intros g (A & (_ & I1)). unfold affine in A. destruct g as [[a1 a2 a3 a4] [b1 b2 b3 b4] [c1 c2 c3 c4] r3]. cbn in A. subst r3.
  assert (E : mapply (mmul (M4 (V4 a1 a2 a3 a4) (V4 b1 b2 b3 b4) (V4 c1 c2 c3 c4) (V4 0 0 0 1)) (mtrans (M4 (V4 a1 a2 a3 a4) (V4 b1 b2 b3 b4) (V4 c1 c2 c3 c4) (V4 0 0 0 1)))) oo = oo) by (rewrite I1; apply mapply_mid).
  rewrite mapply_mmul in E. revert E. unfold mtrans, mapply, vdot, oo; cbn. intro E. injection E as E1 E2 E3 E4. f_equal; lra.
Qed.
Lemma about_axis : forall g, about_z g -> mapply g ez = ez.
Proof.
  intros g ((A & (_ & I1)) & R). assert (E : mapply (mtrans g) ez = ez).
  { destruct g as [[a1 a2 a3 a4] [b1 b2 b3 b4] r2 r3]. cbn in R. unfold affine in A. cbn in A. subst r2 r3. unfold mtrans, mapply, vdot, ez; cbn. f_equal; ring. }
  rewrite <- E at 1. rewrite <- mapply_mmul, I1. apply mapply_mid.
Qed.
Lemma mirror_fixes : forall v, (mapply mirror_y v = v -> vy v = 0) /\ (mapply mirror_z v = v -> vz v = 0).
Proof.
  intros [a b c d]. unfold mirror_y, mirror_z, flip, mapply, vdot; cbn. split; intro E; injection E; intros; lra.
Qed.
Lemma symmetric_fixes : forall m s, symmetric_surf m s -> (forall a b, s_prim s <> PCube a b) ->
  mapply m (mapply (s_world s) oo) = mapply (s_world s) oo /\ ((forall r, s_prim s <> PSphere r) -> mapply m (mapply (s_world s) ez) = mapply (s_world s) ez).
Proof.
  intros m s (g & E & S) NC. rewrite <- !mapply_mmul, E, !mapply_mmul. destruct (s_prim s) as [r|r lo hi c|c0 c1|f h|w l]; cbn [symmetry_of] in S.
  - rewrite (turning_origin g S). split; [reflexivity|]. intro X. destruct (X r eq_refl).
  - rewrite (turning_origin g (proj1 S)), (about_axis g S). auto.
  - destruct (NC c0 c1 eq_refl).
  - rewrite (turning_origin g (proj1 S)), (about_axis g S). auto.
  - destruct S as (a & b & _ & _ & ->). unfold flip, oo, ez. split; [|intros _]; f_equal; unfold mapply, vdot; cbn; f_equal; ring.
Qed.

Lemma axis_round : forall s, surf_ok s -> SpecMotion.isometry (s_world s) -> (forall a b, s_prim s <> PCube a b) -> on_axis (mapply (s_world s) oo) ->
  ((forall r, s_prim s <> PSphere r) -> on_axis (mapply (s_world s) ez)) -> round_about_x s.
Proof.
  intros s (_ & A & INV) ISO NC (OY & OZ) ZA p n P WN. unfold world_normal in WN. destruct (prim_normal (s_prim s) (mapply (s_obj s) p)) as [n0|] eqn:PN; [|discriminate].
  destruct (vnormalize (vset_w (mapply (mtrans (s_obj s)) n0) 0)) as [u|] eqn:NU; [|discriminate]. injection WN as <-.
  destruct (radial_normal _ _ _ NC PN) as (a & b & E & B). apply normalize_scale in NU. destruct NU as (k & ->).
  assert (WO : mapply (s_world s) (mapply (s_obj s) p) = p).
  { rewrite <- mapply_mmul. destruct INV as (I1 & I2). first [rewrite I1|rewrite I2]. apply mapply_mid. }
  assert (W1 : vw (mapply (s_obj s) p) = 1) by (rewrite <- (affine_w (s_world s) _ A), WO; exact P).
  assert (N0 : vw n0 = 0) by (rewrite E; unfold vadd, vscale, vset_w, ez; cbn; ring).
  rewrite (isometry_back _ _ _ ISO INV N0), E.
  assert (SP : vset_w (mapply (s_obj s) p) 0 = vsub (mapply (s_obj s) p) oo).
  { destruct (mapply (s_obj s) p) as [q1 q2 q3 q4]. cbn in W1. subst q4. unfold vset_w, vsub, vadd, vopp, vscale, oo; cbn. f_equal; ring. }
  assert (LIN : mapply (s_world s) (vadd (vscale a (vset_w (mapply (s_obj s) p) 0)) (vscale b ez)) = vadd (vscale a (vsub p (mapply (s_world s) oo))) (vscale b (mapply (s_world s) ez))).
  { rewrite SP. rewrite <- WO at 2. generalize (mapply (s_obj s) p). intros [q1 q2 q3 q4]. destruct (s_world s) as [[a1 a2 a3 a4] [b1 b2 b3 b4] [c1 c2 c3 c4] [d1 d2 d3 d4]].
    unfold mapply, vsub, vadd, vopp, vscale, vdot, oo, ez; cbn. f_equal; ring. }
  rewrite LIN. destruct B as [B | ->].
  - destruct (ZA B) as (EY & EZ). revert OY OZ EY EZ.
    generalize (mapply (s_world s) oo), (mapply (s_world s) ez). intros [o1 o2 o3 o4] [e1 e2 e3 e4]. cbn [vy vz]. intros -> -> -> ->. destruct p as [p1 p2 p3 p4].
    unfold moment, vsub, vadd, vopp, vscale; cbn. ring.
  - revert OY OZ. generalize (mapply (s_world s) oo), (mapply (s_world s) ez). intros [o1 o2 o3 o4] [e1 e2 e3 e4]. cbn [vy vz]. intros -> ->. destruct p as [p1 p2 p3 p4].
    unfold moment, vsub, vadd, vopp, vscale; cbn. ring.
Qed.
Lemma symmetric_round : forall s, surf_ok s -> SpecMotion.isometry (s_world s) -> symmetric_surf mirror_y s -> symmetric_surf mirror_z s ->
  (forall a b, s_prim s <> PCube a b) -> round_about_x s.
Proof.
  intros s OK ISO SY SZ NC. destruct (symmetric_fixes mirror_y s SY NC) as (OY & ZY). destruct (symmetric_fixes mirror_z s SZ NC) as (OZ & ZZ).
  apply mirror_fixes in OY. apply mirror_fixes in OZ. apply axis_round; auto; [split; auto|].
  intro B. split; [apply (mirror_fixes _), (ZY B)|apply (mirror_fixes _), (ZZ B)].
Qed.
