(** * NormalFacts: local and world normals *)
From Coq Require Import Reals List Bool ZArith Lra Psatz.
Import ListNotations.
From Verif Require Import XR XRFacts Lin LinFacts Prim Surf SpecGeom SpecNormal SpecTree TreeFacts PrimFacts PrimFacts2.
Open Scope R_scope.

Lemma vnormalize_pos : forall a, a <> V4 0 0 0 0 ->
  exists k, 0 < k /\ vnormalize a = Some (vscale k a) /\ vdot (vscale k a) (vscale k a) = 1.
Proof.
  intros a H. destruct (vnormalize_nonzero a H) as [u E]. exists (/ vnorm a).
  destruct (vnormalize_some a u E) as (-> & U & P). split; [apply Rinv_0_lt_compat; auto|]. auto.
Qed.

Lemma outward_scaled : forall p x a, a <> V4 0 0 0 0 -> vw a = 0 ->
  (forall q, solid p q -> vdot a (vsub q x) <= 0) ->
  exists n, vnormalize a = Some n /\ outward p x n.
Proof.
  intros p x a H W Q. destruct (vnormalize_pos a H) as (k & Hk & E & U). exists (vscale k a). split; auto.
  split; auto. split; [unfold vscale; cbn [vw]; rewrite W; ring|].
  intros q S. rewrite vdot_scale_l. specialize (Q q S). nra.
Qed.


Lemma sphere_normal_outward : forall r x, r <> 0 -> on_surface (PSphere r) x ->
  exists n, prim_normal (PSphere r) x = Some n /\ outward (PSphere r) x n.
Proof.
  intros r [x y z w] Hr S. cbn [prim_normal on_surface vx vy vz] in *. unfold sphere_normal. apply outward_scaled.
  - unfold vset_w; cbn [vx vy vz]. intro E; injection E as -> -> ->. assert (r * r = 0) by lra. nra.
  - reflexivity.
  - intros [qx qy qz qw] Q. cbn [solid vx vy vz] in Q. unfold vset_w, vdot, vsub, vadd, vopp, vscale; cbn [vx vy vz vw].
    pose proof (Rle_0_sqr (x - qx)); pose proof (Rle_0_sqr (y - qy)); pose proof (Rle_0_sqr (z - qz)). unfold Rsqr in *. nra.
Qed.

Lemma cylinder_normal_outward : forall r lo hi cap x, r <> 0 -> lo <= hi ->
  on_surface (PCylinder r lo hi cap) x -> off_edges (PCylinder r lo hi cap) x ->
  exists n, prim_normal (PCylinder r lo hi cap) x = Some n /\ outward (PCylinder r lo hi cap) x n.
Proof.
  intros r lo hi cap [x y z w] Hr Hlh [[S1 S2] S] (Blo & Bhi & Bc). cbn [prim_normal vx vy vz] in *.
  unfold cylinder_normal; cbn [vx vy vz].
  assert (Side : x * x + y * y = r * r ->
    exists n, vnormalize (V4 x y 0 0) = Some n /\ outward (PCylinder r lo hi cap) (V4 x y z w) n).
  { intro E. apply outward_scaled; [|reflexivity|].
    - intro Ev; injection Ev as -> ->. assert (r * r = 0) by lra. nra.
    - intros [qx qy qz qw] [Q _]. cbn [vx vy vz] in Q. unfold vdot, vsub, vadd, vopp, vscale; cbn [vx vy vz vw].
      pose proof (Rle_0_sqr (x - qx)); pose proof (Rle_0_sqr (y - qy)). unfold Rsqr in *. nra. }
  destruct cap.
  - destruct (isclose z hi) eqn:Eh.
    + specialize (Bhi Eh). subst z. apply outward_scaled; [intro Ev; injection Ev; intros; lra|reflexivity|].
      intros [qx qy qz qw] [_ Q]. cbn [vx vy vz] in Q. unfold vdot, vsub, vadd, vopp, vscale; cbn [vx vy vz vw]. lra.
    + destruct (isclose z lo) eqn:El.
      * specialize (Blo El). subst z. apply outward_scaled; [intro Ev; injection Ev; intros; lra|reflexivity|].
        intros [qx qy qz qw] [_ Q]. cbn [vx vy vz] in Q. unfold vdot, vsub, vadd, vopp, vscale; cbn [vx vy vz vw]. lra.
      * apply Side. destruct S as [S|[S|S]]; auto; subst z; rewrite isclose_refl in *; discriminate.
  - destruct Bc as [Bc|Bc]; [discriminate|]. auto.
Qed.

Lemma paraboloid_normal_outward : forall f h x, 0 < f -> 0 < h ->
  on_surface (PParaboloid f h) x -> off_edges (PParaboloid f h) x ->
  exists n, prim_normal (PParaboloid f h) x = Some n /\ outward (PParaboloid f h) x n.
Proof.
  intros f h [x y z w] Hf Hh [[S1 S2] S] B. cbn [prim_normal off_edges vx vy vz] in *.
  unfold paraboloid_normal; cbn [vx vy vz]. destruct (isclose z h) eqn:E.
  - specialize (B E). subst z. apply outward_scaled; [intro Ev; injection Ev; intros; lra|reflexivity|].
    intros [qx qy qz qw] [_ Q]. cbn [vx vy vz] in Q. unfold vdot, vsub, vadd, vopp, vscale; cbn [vx vy vz vw]. lra.
  - destruct S as [S|S]; [|subst z; rewrite isclose_refl in E; discriminate].
    apply outward_scaled; [intro Ev; injection Ev; intros; lra|reflexivity|].
    intros [qx qy qz qw] [Q1 Q2]. cbn [vx vy vz] in Q1, Q2. unfold vdot, vsub, vadd, vopp, vscale; cbn [vx vy vz vw].
    pose proof (Rle_0_sqr (x - qx)); pose proof (Rle_0_sqr (y - qy)). unfold Rsqr in *. nra.
Qed.

Lemma cube_axis_normal : forall a b x, off_band x a -> off_band x b -> a <> b -> between a b x ->
  let n := cube_normal_axis (Rmin a b) (Rmax a b) x in
  (forall q, between a b q -> n * (q - x) <= 0) /\ (x = a \/ x = b -> n = 1 \/ n = -1) /\ (n = 0 \/ n = 1 \/ n = -1).
Proof.
  intros a b x Ba Bb N I n.
  assert (M1 : isclose x (Rmin a b) = true -> x = Rmin a b) by (unfold Rmin; destruct (Rle_dec a b); auto).
  assert (M2 : isclose x (Rmax a b) = true -> x = Rmax a b) by (unfold Rmax; destruct (Rle_dec a b); auto).
  unfold n, cube_normal_axis. split; [|split].
  - intros q Hq. unfold between in *.
    destruct (isclose x (Rmax a b)) eqn:E1; [specialize (M2 eq_refl); lra|].
    destruct (isclose x (Rmin a b)) eqn:E2; [specialize (M1 eq_refl); lra|lra].
  - intros Hx. destruct (isclose x (Rmax a b)) eqn:E1; auto.
    destruct (isclose x (Rmin a b)) eqn:E2; auto. exfalso.
    assert (x = Rmin a b \/ x = Rmax a b) as [K|K].
    { unfold Rmin, Rmax; destruct (Rle_dec a b); tauto. }
    + rewrite K, isclose_refl in E2; discriminate.
    + rewrite K, isclose_refl in E1; discriminate.
  - destruct (isclose x (Rmax a b)); auto. destruct (isclose x (Rmin a b)); auto.
Qed.

Lemma cube_normal_outward : forall c0 c1 x,
  on_surface (PCube c0 c1) x -> off_edges (PCube c0 c1) x ->
  exists n, prim_normal (PCube c0 c1) x = Some n /\ outward (PCube c0 c1) x n.
Proof.
  intros [[x0 y0] z0] [[x1 y1] z1] [x y z w] [(Ix & Iy & Iz) S] ((Bx0 & Bx1 & Nx) & (By0 & By1 & Ny) & (Bz0 & Bz1 & Nz)).
  cbn [prim_normal vx vy vz] in *. unfold cube_normal; cbn [vx vy vz].
  destruct (cube_axis_normal x0 x1 x Bx0 Bx1 Nx Ix) as (Px & Sx & Tx).
  destruct (cube_axis_normal y0 y1 y By0 By1 Ny Iy) as (Py & Sy & Ty).
  destruct (cube_axis_normal z0 z1 z Bz0 Bz1 Nz Iz) as (Pz & Sz & Tz). cbv zeta in *.
  set (nx := cube_normal_axis (Rmin x0 x1) (Rmax x0 x1) x) in *.
  set (ny := cube_normal_axis (Rmin y0 y1) (Rmax y0 y1) y) in *.
  set (nz := cube_normal_axis (Rmin z0 z1) (Rmax z0 z1) z) in *.
  clearbody nx ny nz.
  apply outward_scaled; [|reflexivity|].
  - intro Ev. injection Ev as E1 E2 E3. clear Px Py Pz Tx Ty Tz.
    destruct S as [S|[S|S]]; [destruct (Sx S) as [Q|Q]|destruct (Sy S) as [Q|Q]|destruct (Sz S) as [Q|Q]]; clear - Q E1 E2 E3; lra.
  - intros [qx qy qz qw] (Qx & Qy & Qz). cbn [vx vy vz] in *.
    specialize (Px qx Qx). specialize (Py qy Qy). specialize (Pz qz Qz).
    unfold vdot, vsub, vadd, vopp, vscale; cbn [vx vy vz vw].
    clear - Px Py Pz. lra.
Qed.

Lemma prim_normal_outward : forall p x, prim_ok p -> on_surface p x -> off_edges p x ->
  exists n, prim_normal p x = Some n /\ outward p x n.
Proof.
  intros [r|r lo hi cap|c0 c1|f h|w l] x OK S O.
  - apply sphere_normal_outward; auto.
  - destruct OK. apply cylinder_normal_outward; auto.
  - apply cube_normal_outward; auto.
  - destruct OK. apply paraboloid_normal_outward; auto.
  - exists plane_normal. split; auto. unfold plane_normal. split; [unfold vdot; cbn [vx vy vz vw]; ring|].
    split; auto. intros [qx qy qz qw] (_ & _ & Q). destruct x as [x y z w']. destruct S as (_ & _ & S).
    unfold vdot, vsub, vadd, vopp, vscale in *; cbn [vx vy vz vw] in *. lra.
Qed.

(** a thin cuboid away from the origin: the normal of one face has the wrong sign *)
Definition thin : prim := PCube (1000, 0, 0) (1000 + 1/1000, 1, 1).
Lemma thin_normal_wrong : prim_normal thin (point 1000 (1/2) (1/2)) = Some (vector 1 0 0).
Proof.
  unfold prim_normal, thin, cube_normal, point; cbn [vx vy vz].
  rewrite !Rmin_left, !Rmax_right by lra. unfold cube_normal_axis.
  assert (isclose 1000 (1000 + 1/1000) = true) as ->.
  { unfold isclose. apply rleb_true. unfold atol, rtol.
    rewrite (Rabs_left (1000 - (1000 + 1/1000))), (Rabs_right (1000 + 1/1000)) by lra. lra. }
  assert (isclose (1/2) 1 = false) as ->.
  { unfold isclose. apply rleb_false. unfold atol, rtol.
    rewrite (Rabs_left (1/2 - 1)), (Rabs_right 1) by lra. lra. }
  assert (isclose (1/2) 0 = false) as ->.
  { apply isclose0_false. unfold atol. rewrite Rabs_right by lra. lra. }
  rewrite vnormalize_unit; auto. unfold vdot; cbn [vx vy vz vw]. ring.
Qed.
Lemma thin_on_surface : on_surface thin (point 1000 (1/2) (1/2)).
Proof.
  unfold thin, on_surface, solid, between, point; cbn [vx vy vz].
  rewrite !Rmin_left, !Rmax_right by lra. lra.
Qed.
Lemma thin_not_outward : ~ outward thin (point 1000 (1/2) (1/2)) (vector 1 0 0).
Proof.
  intros (_ & _ & H). specialize (H (point (1000 + 1/1000) (1/2) (1/2))).
  assert (S : solid thin (point (1000 + 1/1000) (1/2) (1/2))).
  { unfold thin, solid, between, point; cbn [vx vy vz]. rewrite !Rmin_left, !Rmax_right by lra. lra. }
  specialize (H S). unfold vdot, vsub, vadd, vopp, vscale, vector, point in H; cbn [vx vy vz vw] in H. lra.
Qed.

(** ** World normals *)
Lemma dot3_w0 : forall a b, vw b = 0 -> vdot (vset_w a 0) b = vdot a b.
Proof. intros a b H. unfold vset_w, vdot; cbn [vx vy vz vw]. rewrite H. ring. Qed.

Lemma world_normal_spec : forall s p n,
  affine (s_world s) -> is_inverse (s_world s) (s_obj s) -> s_nscale s = 1 \/ s_nscale s = -1 ->
  prim_normal (s_prim s) (mapply (s_obj s) p) = Some n -> vw n = 0 -> vdot n n = 1 ->
  exists m, world_normal s p = Some m /\ vdot m m = 1 /\ vw m = 0 /\
    (forall t, vw t = 0 -> vdot n t = 0 -> vdot m (mapply (s_world s) t) = 0) /\
    0 < s_nscale s * vdot m (mapply (s_world s) n).
Proof.
  intros s p n A I K E W U. unfold world_normal. rewrite E.
  set (a := vset_w (mapply (mtrans (s_obj s)) n) 0).
  assert (D : forall t, vw t = 0 -> vdot a (mapply (s_world s) t) = vdot n t).
  { intros t Ht. unfold a. rewrite dot3_w0 by (rewrite affine_w; auto).
    rewrite vdot_mtrans, inverse_apply_l; auto. }
  assert (Na : a <> V4 0 0 0 0).
  { intro Z. specialize (D n W). rewrite Z, U in D. unfold vdot at 1 in D; cbn [vx vy vz vw] in D. lra. }
  destruct (vnormalize_pos a Na) as (k & Hk & Ev & Uk). rewrite Ev.
  exists (vscale (s_nscale s) (vscale k a)). split; auto. split; [|split; [|split]].
  - rewrite vdot_scale_l, vdot_scale_r, Uk. destruct K as [-> | ->]; ring.
  - unfold vscale, a, vset_w; cbn [vw]. ring.
  - intros t Ht Hn. rewrite !vdot_scale_l, D, Hn by auto. ring.
  - rewrite !vdot_scale_l, D, U by auto. destruct K as [-> | ->]; lra.
Qed.

(** normals scaled by -1 are the negatives *)
Lemma world_normal_inverted : forall s p m,
  world_normal (Surf (s_id s) (s_prim s) (s_world s) (s_obj s) 1 (s_mat s)) p = Some m ->
  world_normal (Surf (s_id s) (s_prim s) (s_world s) (s_obj s) (-1) (s_mat s)) p = Some (vopp m).
Proof.
  intros s p m. unfold world_normal; cbn [s_prim s_obj s_nscale]. destruct (prim_normal _ _); [|discriminate].
  destruct (vnormalize _); [|discriminate]. intro H; injection H as <-. rewrite vscale_1. auto.
Qed.

(** for a surface point the world normal exists and the placed solid lies behind its tangent plane *)
Lemma world_normal_outward : forall s q, surf_ok s -> vw q = 1 -> s_nscale s = 1 ->
  on_surface (s_prim s) (mapply (s_obj s) q) -> off_edges (s_prim s) (mapply (s_obj s) q) ->
  exists m, world_normal s q = Some m /\ vdot m m = 1 /\ vw m = 0 /\
    forall x, placed s x -> vw x = 1 -> vdot m (vsub x q) <= 0.
Proof.
  intros s q OK W K S O. pose proof OK as (P & A & I).
  destruct (prim_normal_outward _ _ P S O) as (n & E & U & Wn & Q).
  unfold world_normal. rewrite E.
  set (a := vset_w (mapply (mtrans (s_obj s)) n) 0).
  assert (D : forall t, vw t = 0 -> vdot a (mapply (s_world s) t) = vdot n t).
  { intros t Ht. unfold a. rewrite dot3_w0 by (rewrite affine_w; auto).
    rewrite vdot_mtrans, inverse_apply_l; auto. }
  assert (Na : a <> V4 0 0 0 0).
  { intro Z. specialize (D n Wn). rewrite Z, U in D. unfold vdot at 1 in D; cbn [vx vy vz vw] in D. lra. }
  destruct (vnormalize_pos a Na) as (k & Hk & Ev & Uk). rewrite Ev, K, vscale_1.
  exists (vscale k a). split; auto. split; auto. split; [unfold vscale, a, vset_w; cbn [vw]; ring|].
  intros x Hx Wx. rewrite vdot_scale_l. apply placed_local in Hx; auto. specialize (Q _ Hx).
  assert (vdot a (vsub x q) = vdot n (vsub (mapply (s_obj s) x) (mapply (s_obj s) q))) as ->.
  { assert (Eo : vsub (mapply (s_obj s) x) (mapply (s_obj s) q) = mapply (s_obj s) (vsub x q)).
    { unfold vsub, vopp. rewrite mapply_add, mapply_scale. auto. }
    rewrite Eo. rewrite <- D.
    - rewrite inverse_apply_r; auto.
    - rewrite affine_w by (eapply affine_inverse; eauto). unfold vsub, vadd, vopp, vscale; cbn [vw]. rewrite W, Wx. ring. }
  nra.
Qed.
