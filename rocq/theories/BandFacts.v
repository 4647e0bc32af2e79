(** * BandFacts: hits of rays inside the isclose bands *)
From Coq Require Import Reals List Bool ZArith Lra Lia.
Import ListNotations.
From Verif Require Import XR XRFacts Lin LinFacts Ops OpsFacts SpecOptics Prim Surf SpecGeom SpecTree SpecBand PrimFacts PrimFacts2 SurfFacts.
Open Scope R_scope.

Lemma no_less_close : forall x, isclose x 0 = isclose (no_less x) 0.
Proof.
  intro x. unfold no_less. destruct (Rle_dec (Rabs x) (/ 100000000)) as [L|L]; auto.
  rewrite isclose0_0. apply isclose0_true. unfold atol. lra.
Qed.
Lemma no_less_case : forall x, (isclose x 0 = true /\ no_less x = 0) \/ (isclose x 0 = false /\ no_less x = x).
Proof.
  intro x. unfold no_less. destruct (Rle_dec (Rabs x) (/ 100000000)) as [L|L].
  - left. split; auto. apply isclose0_true. unfold atol. lra.
  - right. split; auto. apply isclose0_false. unfold atol. lra.
Qed.
Lemma no_less_clear : forall x, clear (no_less x).
Proof. intro x. unfold no_less, clear. destruct (Rle_dec _ _) as [L|L]; auto. right. unfold atol. lra. Qed.
Lemma no_less_near : forall x, Rabs (no_less x - x) <= / 100000000.
Proof.
  intro x. unfold no_less. destruct (Rle_dec _ _) as [L|L].
  - rewrite Rminus_0_l, Rabs_Ropp. auto.
  - rewrite Rminus_diag_eq, Rabs_R0 by auto. lra.
Qed.

Lemma axis_hits_band : forall span o d, cube_axis_hits span o d = cube_axis_hits span o (no_less d).
Proof.
  intros [lo hi] o d. unfold cube_axis_hits. destruct (no_less_case d) as [[E ->]|[E ->]]; auto.
  rewrite E, isclose0_0. reflexivity.
Qed.
Lemma box_band : forall b r, cube_hits b r = cube_hits b (straightened r).
Proof.
  intros b [o d]. unfold cube_hits, straightened; cbn [origin direction vx vy vz].
  rewrite (axis_hits_band (spanx b)), (axis_hits_band (spany b)), (axis_hits_band (spanz b)). reflexivity.
Qed.
Lemma box_hit_band : forall b r, box_hit b r = box_hit b (straightened r).
Proof. intros b r. unfold box_hit. rewrite box_band. reflexivity. Qed.
Lemma cube_band : forall c0 c1 r, prim_hits (PCube c0 c1) r = prim_hits (PCube c0 c1) (straightened r).
Proof. intros. apply box_band. Qed.

Lemma plane_axis_band : forall dim o d, plane_axis_hits dim o d = plane_axis_hits dim o (no_less d).
Proof.
  intros dim o d. unfold plane_axis_hits. destruct (no_less_case d) as [[E ->]|[E ->]]; auto.
  rewrite E, isclose0_0. reflexivity.
Qed.
Lemma plane_band : forall w l r, prim_hits (PPlane w l) r = prim_hits (PPlane w l) (straightened r).
Proof.
  intros w l [o d]. cbn [prim_hits]. unfold plane_hits, straightened; cbn [origin direction vx vy vz].
  rewrite (plane_axis_band w), (plane_axis_band l).
  destruct (no_less_case (vz d)) as [[E E']|[E E']]; rewrite E'; auto. rewrite E, isclose0_0. reflexivity.
Qed.
Lemma z_clip_band : forall lo hi o d, z_clip lo hi o d = z_clip lo hi o (no_less d).
Proof.
  intros lo hi o d. unfold z_clip. destruct (no_less_case d) as [[E ->]|[E ->]]; auto. rewrite E, isclose0_0. reflexivity.
Qed.
Lemma cylinder_flat : forall rad lo hi cap r, prim_hits (PCylinder rad lo hi cap) r = prim_hits (PCylinder rad lo hi cap) (flattened r).
Proof.
  intros rad lo hi cap [o d]. cbn [prim_hits]. unfold cylinder_hits, flattened; cbn [origin direction vx vy vz].
  rewrite z_clip_band. reflexivity.
Qed.

Lemma binomial_band : forall a b c, Rabs a <= / 100000000 ->
  (Rabs b <= / 100000000 -> binomial_root a b c = binomial_root 0 0 c) /\
  (/ 100000000 < Rabs b -> exists t, binomial_root a b c = (Fin t, Fin t) /\ b * t + c = 0).
Proof.
  intros a b c Ha. assert (A : isclose a 0 = true) by (apply isclose0_true; exact Ha). split; intro Hb.
  - assert (B : isclose b 0 = true) by (apply isclose0_true; exact Hb). rewrite binomial_constant.
    unfold binomial_root. rewrite A, B. cbn [andb]. destruct (rleb 0 (b * b - 4 * a * c)); destruct (rleb c 0); reflexivity.
  - assert (B : isclose b 0 = false) by (apply isclose0_false; exact Hb).
    assert (N : b <> 0) by (apply isclose_false_neq; auto).
    exists (- c / b). split; [|field; auto]. unfold binomial_root. rewrite A, B. cbn [andb].
    assert (reqb b 0 = false) as -> by (unfold reqb; destruct (Req_EM_T b 0); auto; contradiction).
    change (b2r false) with 0. rewrite (Rplus_0_r b), (xdiv_fin (- c) b) by auto.
    destruct (rleb 0 (b * b - 4 * a * c)); reflexivity.
Qed.

Lemma cylinder_axial : forall rad lo hi cap r, across r <= / 100000000 -> Rabs (approach r) <= / 100000000 ->
  prim_hits (PCylinder rad lo hi cap) r = prim_hits (PCylinder rad lo hi cap) (axial r).
Proof.
  intros rad lo hi cap [[ox oy oz ow] [dx dy dz dw]] A B. rewrite cylinder_flat. cbn [prim_hits].
  unfold cylinder_hits, flattened, axial, across, approach in *; cbn [origin direction vx vy vz] in *.
  replace (0 * 0 + 0 * 0) with 0 by ring. replace (2 * (0 * ox + 0 * oy)) with 0 by ring.
  rewrite (proj1 (binomial_band _ _ (ox * ox + oy * oy - rad * rad) ltac:(rewrite Rabs_right; [exact A|nra])) B). reflexivity.
Qed.

Lemma fin_pair : forall t, describes (sort2 (sort2 (Fin t, Fin t))) (fun s => s = t).
Proof.
  intro t. rewrite sort2_sort2, sort2_fin, Rmin_left, Rmax_left by lra. split; [cbn; apply rleb_true; lra|]. split; [discriminate|].
  intro s. unfold in_iv; cbn [fst snd xleb]. rewrite !rleb_true. split; intros; [subst|]; lra.
Qed.
Lemma cylinder_glance : forall rad lo hi cap r, lo <= hi -> across r <= / 100000000 -> / 100000000 < Rabs (approach r) ->
  exists t, approach r * t + (vx (origin r) * vx (origin r) + vy (origin r) * vy (origin r) - rad * rad) = 0 /\
  (prim_hits (PCylinder rad lo hi cap) r = (Fin t, Fin t) /\ lo <= vz (ray_at (flattened r) t) <= hi \/
   prim_hits (PCylinder rad lo hi cap) r = (PInf, PInf) /\ ~ lo <= vz (ray_at (flattened r) t) <= hi).
Proof.
  intros rad lo hi cap [[ox oy oz ow] [dx dy dz dw]] LH A B. rewrite cylinder_flat. cbn [prim_hits].
  unfold cylinder_hits, flattened, across, approach, ray_at in *; cbn [origin direction vx vy vz] in *.
  destruct (proj2 (binomial_band (dx * dx + dy * dy) _ (ox * ox + oy * oy - rad * rad) ltac:(rewrite Rabs_right; [exact A|nra])) B) as (t & -> & E).
  exists t. split; [exact E|].
  pose proof (z_clip_describes lo hi oz (no_less dz) LH (no_less_clear dz)) as D2.
  pose proof (clip_describes _ _ _ _ (fin_pair t) D2) as D.
  pose proof (clip_closed _ _ _ _ (fin_pair t) D2) as K.
  rewrite sort2_sort2 in K. specialize (K (or_introl (or_introl (ex_intro _ (Rmin t t) (ex_intro _ (Rmax t t) (sort2_fin t t)))))).
  destruct (describes_answers _ _ D K) as [(t0 & t1 & -> & L & Q)|[-> Q]].
  - left. assert (t0 = t) by (apply (Q t0); lra). assert (t1 = t) by (apply (Q t1); lra). subst t0 t1.
    split; auto. apply (Q t). lra.
  - right. split; auto. intro I. apply (Q t). auto.
Qed.

(** ** The paraboloid and rays that go nowhere *)
Lemma bowl_still : forall f h r, vx (direction r) = 0 -> vy (direction r) = 0 -> vz (direction r) = 0 ->
  let o := origin r in
  prim_hits (PParaboloid f h) r =
  if (rleb 0 (vz o) && rleb (vz o) h)%bool then (Fin (4 * f * vz o - (vx o * vx o + vy o * vy o)), PInf) else (PInf, PInf).
Proof.
  intros f h [[ox oy oz ow] [dx dy dz dw]]; cbn [origin direction vx vy vz]. intros -> -> ->. cbn [prim_hits].
  unfold paraboloid_hits, parabola_hits, z_clip; cbn [origin direction vx vy vz].
  replace (0 * 0 + 0 * 0) with 0 by ring. rewrite !isclose0_0. cbn [andb].
  replace (2 * (ox * 0 + oy * 0) - 4 * f * 0) with 0 by ring. rewrite isclose0_0.
  assert (rleb 0 0 = true) as -> by (apply rleb_true; lra). unfold b2r.
  rewrite (xdiv_fin _ (0 + 1)) by lra.
  replace (- (ox * ox + oy * oy - 4 * f * oz) / (0 + 1)) with (4 * f * oz - (ox * ox + oy * oy)) by field.
  assert (S : forall x, sort2 (Fin x, PInf) = (Fin x, PInf)) by reflexivity.
  destruct (rleb 0 (0 * 0 - 4 * 0 * (ox * ox + oy * oy - 4 * f * oz))); rewrite S; unfold clip_hits; rewrite S;
  destruct (rleb 0 oz && rleb oz h)%bool; reflexivity.
Qed.

(** ** smallest_positive_root *)
Lemma spr_opposite : forall a b c x y, a < - / 100000000 -> root_of a b c x -> root_of a b c y -> x < 0 <= y ->
  smallest_positive_root a b c = PInf.
Proof.
  intros a b c x y Ha Rx Ry [Lx Ly].
  assert (Ha' : atol < Rabs a) by (unfold atol; rewrite Rabs_left; lra).
  unfold smallest_positive_root. rewrite (proj2 (isclose0_false _) Ha'). unfold b2r. rewrite Rplus_0_r.
  destruct (rleb 0 (b * b - 4 * a * c)) eqn:D; [|reflexivity]. apply rleb_true in D. cbn [andb]. rewrite Rmax_right by auto. rewrite !xdiv_fin by lra.
  pose proof (fun x => quad_roots a b c x ltac:(lra) D) as Q. cbv zeta in Q.
  set (s := sqrt (b * b - 4 * a * c)) in *. assert (0 <= s) by apply sqrt_pos.
  assert (O : (- b + s) / (2 * a) <= (- b - s) / (2 * a)) by (apply div_order_neg; lra).
  set (p0 := (- b + s) / (2 * a)) in *. set (p1 := (- b - s) / (2 * a)) in *.
  apply Q in Rx. apply Q in Ry.
  assert (p0 < 0 /\ 0 <= p1) as [N P] by (destruct Rx, Ry; subst; lra).
  cbn [xleb]. rewrite xmin_fin, (proj2 (rleb_true 0 p1)), Rmin_left by lra. cbn [xleb].
  rewrite (proj2 (rleb_false 0 p0)) by lra. reflexivity.
Qed.

(** ** How far off *)
Lemma straightened_near : forall r t, within_each (/ 100000000 * Rabs t) (ray_at (straightened r) t) (ray_at r t).
Proof.
  intros [[ox oy oz ow] [dx dy dz dw]] t. unfold within_each, straightened, ray_at; cbn [origin direction vx vy vz vw].
  assert (K : forall o d, Rabs (o + t * no_less d - (o + t * d)) <= / 100000000 * Rabs t).
  { intros o d. replace (o + t * no_less d - (o + t * d)) with ((no_less d - d) * t) by ring. rewrite Rabs_mult.
    apply Rmult_le_compat_r; [apply Rabs_pos|apply no_less_near]. }
  repeat split; auto.
Qed.
