(** * EdgeFacts: exactly where the normals of the primitives are outward *)
From Coq Require Import Reals List Bool ZArith Lra Psatz.
Import ListNotations.
From Verif Require Import XR XRFacts Lin LinFacts Prim Surf SpecGeom SpecNormal SpecTree TreeFacts PrimFacts PrimFacts2
  NormalFacts SpecEdges.
Open Scope R_scope.

Lemma near_isclose : forall v c, near v c <-> isclose v c = true.
Proof. intros v c. unfold near, isclose, atol, rtol. split; [apply rleb_true|apply rleb_true]. Qed.

Lemma near_refl : forall v, near v v.
Proof. intro v. apply near_isclose, isclose_refl. Qed.

Lemma outward_unscaled : forall p x a n, vnormalize a = Some n -> outward p x n ->
  forall q, solid p q -> vdot a (vsub q x) <= 0.
Proof.
  intros p x a n E (_ & _ & O) q Q. destruct (vnormalize_some a n E) as (En & _ & P).
  specialize (O q Q). rewrite En, vdot_scale_l in O.
  assert (0 < / vnorm a) by (apply Rinv_0_lt_compat; auto). nra.
Qed.

Lemma outward_iff : forall p x a, a <> V4 0 0 0 0 -> vw a = 0 ->
  ((exists n, vnormalize a = Some n /\ outward p x n) <-> (forall q, solid p q -> vdot a (vsub q x) <= 0)).
Proof.
  intros p x a H W. split.
  - intros (n & E & O). apply (outward_unscaled p x a n E O).
  - intro Q. apply outward_scaled; auto.
Qed.

Lemma axis_right : forall lo hi v, lo <= v <= hi ->
  (told_apart lo hi v <-> (forall q, lo <= q <= hi -> cube_normal_axis lo hi v * (q - v) <= 0)).
Proof.
  intros lo hi v I. unfold told_apart, cube_normal_axis. rewrite !near_isclose. split.
  - intros [A B] q Q. destruct (isclose v hi) eqn:E1; [rewrite (A eq_refl) in *; lra|].
    destruct (isclose v lo) eqn:E2; [rewrite (B eq_refl) by discriminate; lra|lra].
  - intro H. split.
    + intro E. rewrite E in H. specialize (H hi). lra.
    + intros E1 E2. rewrite E1 in H. destruct (isclose v hi); [contradiction E2; auto|]. specialize (H lo). lra.
Qed.

Lemma axis_nonzero : forall lo hi v, v = lo \/ v = hi -> cube_normal_axis lo hi v <> 0.
Proof.
  intros lo hi v H. unfold cube_normal_axis. destruct (isclose v hi) eqn:E; [lra|].
  destruct (isclose v lo) eqn:E2; [lra|]. destruct H as [-> | ->]; rewrite isclose_refl in *; discriminate.
Qed.

Lemma face_minmax : forall a b v, v = a \/ v = b -> v = Rmin a b \/ v = Rmax a b.
Proof. intros a b v. unfold Rmin, Rmax. destruct (Rle_dec a b); tauto. Qed.

Lemma cube_exact : forall c0 c1 x, on_surface (PCube c0 c1) x ->
  ((exists n, prim_normal (PCube c0 c1) x = Some n /\ outward (PCube c0 c1) x n) <-> outward_at (PCube c0 c1) x).
Proof.
  intros [[x0 y0] z0] [[x1 y1] z1] [x y z w] [(Ix & Iy & Iz) S].
  cbn [prim_normal outward_at vx vy vz] in *. unfold cube_normal; cbn [vx vy vz].
  unfold between in Ix, Iy, Iz.
  rewrite (axis_right _ _ _ Ix), (axis_right _ _ _ Iy), (axis_right _ _ _ Iz).
  assert (N : V4 (cube_normal_axis (Rmin x0 x1) (Rmax x0 x1) x) (cube_normal_axis (Rmin y0 y1) (Rmax y0 y1) y)
                 (cube_normal_axis (Rmin z0 z1) (Rmax z0 z1) z) 0 <> V4 0 0 0 0).
  { intro E. injection E as E1 E2 E3. destruct S as [S|[S|S]]; apply face_minmax, axis_nonzero in S; contradiction. }
  rewrite outward_iff by (auto; reflexivity).
  set (nx := cube_normal_axis (Rmin x0 x1) (Rmax x0 x1) x) in *.
  set (ny := cube_normal_axis (Rmin y0 y1) (Rmax y0 y1) y) in *.
  set (nz := cube_normal_axis (Rmin z0 z1) (Rmax z0 z1) z) in *.
  clearbody nx ny nz. split.
  - intro H. split; [|split]; intros q Q.
    + specialize (H (V4 q y z 0)). unfold solid, between, vdot, vsub, vadd, vopp, vscale in H; cbn [vx vy vz vw] in H.
      assert (K := H (conj Q (conj Iy Iz))). clear - K. lra.
    + specialize (H (V4 x q z 0)). unfold solid, between, vdot, vsub, vadd, vopp, vscale in H; cbn [vx vy vz vw] in H.
      assert (K := H (conj Ix (conj Q Iz))). clear - K. lra.
    + specialize (H (V4 x y q 0)). unfold solid, between, vdot, vsub, vadd, vopp, vscale in H; cbn [vx vy vz vw] in H.
      assert (K := H (conj Ix (conj Iy Q))). clear - K. lra.
  - intros (Px & Py & Pz) [qx qy qz qw] (Qx & Qy & Qz). cbn [vx vy vz] in *. unfold between in *.
    specialize (Px qx Qx). specialize (Py qy Qy). specialize (Pz qz Qz).
    unfold vdot, vsub, vadd, vopp, vscale; cbn [vx vy vz vw]. clear - Px Py Pz. lra.
Qed.

Lemma cylinder_exact : forall r lo hi cap x, r <> 0 -> lo <= hi -> on_surface (PCylinder r lo hi cap) x ->
  ((exists n, prim_normal (PCylinder r lo hi cap) x = Some n /\ outward (PCylinder r lo hi cap) x n) <->
   outward_at (PCylinder r lo hi cap) x).
Proof.
  intros r lo hi cap [x y z w] Hr Hlh S. pose proof S as [[S1 S2] S3]. cbn [vx vy vz] in *.
  assert (Z : forall q, lo <= q <= hi -> solid (PCylinder r lo hi cap) (V4 x y q 0)) by (intros q Q; split; auto).
  destruct cap; cbn [prim_normal outward_at vx vy vz]; unfold cylinder_normal; cbn [vx vy vz].
  - unfold told_apart. rewrite !near_isclose. destruct (isclose z hi) eqn:Eh.
    + rewrite outward_iff; [|intro Ev; injection Ev; intros; lra|reflexivity]. split.
      * intro H. split; [intros _|intros _ N; contradiction N; auto].
        specialize (H _ (Z hi (conj Hlh (Rle_refl _)))). unfold vdot, vsub, vadd, vopp, vscale in H; cbn [vx vy vz vw] in H. lra.
      * intros [A _] [qx qy qz qw] [_ Q]. cbn [vx vy vz] in Q. specialize (A eq_refl). subst z.
        unfold vdot, vsub, vadd, vopp, vscale; cbn [vx vy vz vw]. lra.
    + destruct (isclose z lo) eqn:El.
      * rewrite outward_iff; [|intro Ev; injection Ev; intros; lra|reflexivity]. split.
        -- intro H. split; [discriminate|intros _ _].
           specialize (H _ (Z lo (conj (Rle_refl _) Hlh))). unfold vdot, vsub, vadd, vopp, vscale in H; cbn [vx vy vz vw] in H. lra.
        -- intros [_ B] [qx qy qz qw] [_ Q]. cbn [vx vy vz] in Q. specialize (B eq_refl ltac:(discriminate)). subst z.
           unfold vdot, vsub, vadd, vopp, vscale; cbn [vx vy vz vw]. lra.
      * split; [intros _; split; discriminate|intros _].
        destruct S3 as [E|[E|E]]; [|subst z; rewrite isclose_refl in El; discriminate|subst z; rewrite isclose_refl in Eh; discriminate].
        apply outward_scaled; [|reflexivity|].
        -- intro Ev; injection Ev as -> ->. assert (r * r = 0) by lra. nra.
        -- intros [qx qy qz qw] [Q _]. cbn [vx vy vz] in Q. unfold vdot, vsub, vadd, vopp, vscale; cbn [vx vy vz vw].
           pose proof (Rle_0_sqr (x - qx)); pose proof (Rle_0_sqr (y - qy)). unfold Rsqr in *. nra.
  - split.
    + intros (n & E & O). pose proof (outward_unscaled _ _ _ _ E O) as H.
      destruct (Req_dec (x * x + y * y) 0) as [Z0|Z0].
      { exfalso. assert (x = 0) by nra. assert (y = 0) by nra. subst x y.
        destruct (vnormalize_some _ _ E) as (_ & _ & P). unfold vnorm, vdot in P; cbn [vx vy vz vw] in P.
        replace (0 * 0 + 0 * 0 + 0 * 0 + 0 * 0) with 0 in P by ring. rewrite sqrt_0 in P. lra. }
      set (s := x * x + y * y) in *. assert (Ps : 0 < s) by (unfold s in *; nra).
      set (k := Rabs r / sqrt s).
      assert (Pq : 0 < sqrt s) by (apply sqrt_lt_R0; auto).
      assert (Kk : k * k * s = r * r).
      { unfold k. replace (Rabs r / sqrt s * (Rabs r / sqrt s) * s) with (Rabs r * Rabs r * (s / (sqrt s * sqrt s))) by (field; lra).
        rewrite sqrt_sqrt by lra. replace (s / s) with 1 by (field; lra). rewrite Rmult_1_r. rewrite <- Rabs_mult. apply Rabs_right. nra. }
      assert (Kp : 0 < k) by (unfold k; apply Rdiv_lt_0_compat; auto; apply Rabs_pos_lt; auto).
      assert (Q : solid (PCylinder r lo hi false) (V4 (k * x) (k * y) z 0)).
      { split; cbn [vx vy vz]; auto. replace (k * x * (k * x) + k * y * (k * y)) with (k * k * s) by (unfold s; ring). lra. }
      specialize (H _ Q). unfold vdot, vsub, vadd, vopp, vscale in H; cbn [vx vy vz vw] in H.
      assert (H2 : (k - 1) * s <= 0) by (unfold s; lra).
      assert (k <= 1) by nra. nra.
    + intro E. apply outward_scaled; [|reflexivity|].
      * intro Ev; injection Ev as -> ->. assert (r * r = 0) by lra. nra.
      * intros [qx qy qz qw] [Q _]. cbn [vx vy vz] in Q. unfold vdot, vsub, vadd, vopp, vscale; cbn [vx vy vz vw].
        pose proof (Rle_0_sqr (x - qx)); pose proof (Rle_0_sqr (y - qy)). unfold Rsqr in *. nra.
Qed.

Lemma paraboloid_exact : forall f h x, 0 < f -> 0 < h -> on_surface (PParaboloid f h) x ->
  ((exists n, prim_normal (PParaboloid f h) x = Some n /\ outward (PParaboloid f h) x n) <-> outward_at (PParaboloid f h) x).
Proof.
  intros f h [x y z w] Hf Hh S. split.
  - intros (n & E & O). cbn [prim_normal outward_at vx vy vz] in *. unfold paraboloid_normal in E; cbn [vx vy vz] in E.
    rewrite near_isclose. intro Ez. rewrite Ez in E. pose proof (outward_unscaled _ _ _ _ E O) as H.
    destruct S as [[S1 S2] S3]; cbn [vx vy vz] in *.
    assert (Q : solid (PParaboloid f h) (V4 x y h 0)) by (split; cbn [vx vy vz]; nra).
    specialize (H _ Q). unfold vdot, vsub, vadd, vopp, vscale in H; cbn [vx vy vz vw] in H. lra.
  - intro H. apply paraboloid_normal_outward; auto. cbn [off_edges outward_at vx vy vz] in *.
    unfold off_band. rewrite <- near_isclose. auto.
Qed.

Lemma normals_exactly : forall p x, prim_ok p -> on_surface p x ->
  ((exists n, prim_normal p x = Some n /\ outward p x n) <-> outward_at p x).
Proof.
  intros [r|r lo hi cap|c0 c1|f h|w l] x OK S.
  - split; [intros _; exact I|intros _; apply sphere_normal_outward; auto].
  - destruct OK. apply cylinder_exact; auto.
  - apply cube_exact; auto.
  - destruct OK. apply paraboloid_exact; auto.
  - split; [intros _; exact I|intros _]. apply prim_normal_outward; auto. exact I.
Qed.

(** a normal is given everywhere but on the axis of a cylinder without caps *)
Lemma normal_given : forall p x, prim_ok p -> on_surface p x ->
  (exists n, prim_normal p x = Some n /\ vdot n n = 1 /\ vw n = 0) \/
  (prim_normal p x = None /\ vx x = 0 /\ vy x = 0 /\ exists r lo hi, p = PCylinder r lo hi false).
Proof.
  assert (G : forall a, a <> V4 0 0 0 0 -> vw a = 0 -> exists n, vnormalize a = Some n /\ vdot n n = 1 /\ vw n = 0).
  { intros a H W. destruct (vnormalize_pos a H) as (k & Hk & E & U). exists (vscale k a). split; auto. split; auto.
    unfold vscale; cbn [vw]. rewrite W. ring. }
  intros [r|r lo hi cap|[[x0 y0] z0] [[x1 y1] z1]|f h|w l] [x y z wx] OK S; cbn [prim_normal].
  - left. destruct (sphere_normal_outward r _ OK S) as (n & E & U & W & _). exists n. auto.
  - destruct OK as [Hr Hl]. unfold cylinder_normal; cbn [vx vy vz].
    assert (Side : x * x + y * y = r * r -> V4 x y 0 0 <> V4 0 0 0 0).
    { intros E Ev; injection Ev as -> ->. assert (r * r = 0) by lra. nra. }
    destruct cap.
    + left. apply G.
      * destruct (isclose z hi) eqn:Eh; [intro Ev; injection Ev; intros; lra|].
        destruct (isclose z lo) eqn:El; [intro Ev; injection Ev; intros; lra|].
        destruct S as [_ [E|[E|E]]]; cbn [vx vy vz] in E; [auto| |]; subst z; rewrite isclose_refl in *; discriminate.
      * destruct (isclose z hi); [reflexivity|]. destruct (isclose z lo); reflexivity.
    + destruct (Req_dec x 0) as [Ex|Ex]; [destruct (Req_dec y 0) as [Ey|Ey]|].
      * right. subst x y. split; [|eauto 8].
        destruct (vnormalize (V4 0 0 0 0)) eqn:E; auto. exfalso.
        destruct (vnormalize_some _ _ E) as (_ & _ & P). unfold vnorm, vdot in P; cbn [vx vy vz vw] in P.
        replace (0 * 0 + 0 * 0 + 0 * 0 + 0 * 0) with 0 in P by ring. rewrite sqrt_0 in P. lra.
      * left. apply G; [|reflexivity]. intro Ev; injection Ev; intros; contradiction.
      * left. apply G; [|reflexivity]. intro Ev; injection Ev; intros; contradiction.
  - left. unfold cube_normal; cbn [vx vy vz]. apply G; [|reflexivity]. destruct S as [_ S]; cbn [vx vy vz] in S.
    intro E. injection E as E1 E2 E3. destruct S as [S|[S|S]]; apply face_minmax, axis_nonzero in S; contradiction.
  - left. destruct OK. unfold paraboloid_normal; cbn [vx vy vz]. apply G.
    + destruct (isclose z h); intro Ev; injection Ev; intros; lra.
    + destruct (isclose z h); reflexivity.
  - left. exists plane_normal. split; auto. split; auto. unfold plane_normal, vdot; cbn [vx vy vz vw]. ring.
Qed.

(** every surface point of the unit-sized cuboid is told apart, its corners included *)
Lemma block_told_apart : forall x, on_surface (PCube (0,0,0) (1,1,1)) x -> 
  (forall v, In v [vx x; vy x; vz x] -> v = 0 \/ v = 1 \/ 1/100 <= v <= 99/100) -> outward_at (PCube (0,0,0) (1,1,1)) x.
Proof.
  intros x S H. cbn [outward_at]. rewrite !Rmin_left, !Rmax_right by lra.
  assert (T : forall v, v = 0 \/ v = 1 \/ 1/100 <= v <= 99/100 -> told_apart 0 1 v).
  { intros v K. unfold told_apart, near. rewrite Rabs_R0, Rabs_R1. split.
    - intro N. destruct K as [-> |[-> |K]]; auto; exfalso; rewrite Rabs_left in N by lra; lra.
    - intros N _. destruct K as [-> |[-> |K]]; auto; exfalso; rewrite Rabs_right in N by lra; lra. }
  cbn [In] in H. split; [|split]; apply T, H; auto.
Qed.
