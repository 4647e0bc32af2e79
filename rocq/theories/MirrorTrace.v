(** * MirrorTrace: rows reflected at mirrors *)
From Coq Require Import Reals Lra Lia List Bool ZArith Psatz.
Import ListNotations.
From Verif Require Import XR XRFacts Arr Lin LinFacts Ops OpsFacts SpecOptics Prim Csg Surf SpecGeom SpecTree CsgProps World SpecWorld Tracer SpecTrace
  TraceFacts5 TraceFacts7 TraceProps Components SpecComponents BuildFacts ComponentFacts ComponentFacts2 ComponentFacts3 ComponentOptics SpecMotion MotionFacts
  MirrorFacts MirrorFacts2 PlateFacts SpecPrism PrismFacts PrismProps SpecMirrors.
Open Scope R_scope.

Lemma mirrored_reflect : forall v d n, unit n -> mirrored v d n -> d = vsub v (vscale (2 * vdot v n) n).
Proof.
  intros v d n U (A & B).
  assert (E : d = vadd (tangential d n) (vscale (vdot d n) n)).
  { unfold tangential. destruct d as [a1 a2 a3 a4], n as [b1 b2 b3 b4]. unfold vsub, vadd, vopp, vscale, vdot; cbn [vx vy vz vw]. f_equal; ring. }
  rewrite E, B, A. unfold tangential. destruct v as [a1 a2 a3 a4], n as [b1 b2 b3 b4]. unfold vsub, vadd, vopp, vscale, vdot; cbn [vx vy vz vw]. f_equal; ring.
Qed.
Lemma last_two : forall (A B : Type) (P : A -> B -> Prop) l l' a b, Forall2 P (l ++ [a]) (l' ++ [b]) -> Forall2 P l l' /\ P a b.
Proof.
  intros A B P l l' a b H. apply Forall2_app_inv_l in H. destruct H as (k & k' & H1 & H2 & E).
  inversion H2 as [|? c ? ? H3 H4]; subst. inversion H4; subst. apply app_inj_tail in E. destruct E as (-> & ->). auto.
Qed.

(** ** What a mirror does to a row, when its normal is known where it stands *)
Lemma reflected_at : forall asort, argsort_ok asort -> forall s0 others0 f0 face n m w w', surface_ids s0 = others0 ++ [f0] -> surf_ok f0 -> s_mat f0 = Mirror -> isometry m ->
  reflected asort s0 m face w w' -> (forall q, face q -> world_normal f0 q = Some (n q) /\ unit (n q) /\ vw (n q) = 0) ->
  exists q, face q /\ here (row_end w) = mapply m q /\ unit (row_tilt w) /\ vw (row_tilt w) = 0 /\ unit (row_tilt w') /\ vw (row_tilt w') = 0 /\ row_idx w' = row_idx w /\
    (exists l, 0 < l /\ here (row_end w') = beyond w w' l) /\
    row_tilt w' = vsub (row_tilt w) (vscale (2 * vdot (row_tilt w) (mapply m (n q))) (mapply m (n q))).
Proof.
  intros asort AS s0 others0 f0 face n m w w' S0 OK MA ISO (gen & h & t & comps & fuel & t' & s & i & j & others & f & PR & T & IS & MS & J & J' & SI & (RS & q & Q & H)) NO.
  rewrite S0, SI in MS. apply last_two in MS. destruct MS as (_ & M).
  pose proof PR as ((_ & _ & ND) & _).
  assert (IN : In f (flat_map surface_ids comps)) by (apply in_flat_map; exists s; split; auto; rewrite SI; apply in_app_iff; right; left; reflexivity).
  destruct (NO q Q) as (WN & UN & VN).
  assert (N1 : world_normal f (here (row_end w)) = Some (mapply m (n q))).
  { rewrite H, (moved_normal m ISO f0 f (proj2 (proj2 OK)) M), WN. reflexivity. }
  destruct (proper_legs asort AS _ _ _ _ _ _ PR T) as (LG & FO).
  assert (RW : forall k v, nth_error (rows_with_id i (f_rows (get_results t'))) k = Some v -> unit (row_tilt v) /\ vw (row_tilt v) = 0).
  { intros k v K. apply nth_error_In in K. apply in_rows_with_id in K. destruct K as (K & _). destruct (LG _ K) as (U & D & _). auto. }
  destruct (RW _ _ J) as (U & D), (RW _ _ J') as (U' & D').
  destruct (proper_bounces asort AS _ _ _ _ _ _ PR T i _ eq_refl) as (_ & B & _).
  destruct (B _ _ _ J J') as (g & n' & IG & ID & WN' & U1 & BO).
  assert (g = f) by (apply (same_surface (flat_map surface_ids comps)); auto; congruence). subst g.
  assert (n' = mapply m (n q)) by congruence. subst n'.
  assert (MF : s_mat f = Mirror) by (destruct M as (_ & _ & _ & -> & _); exact MA). rewrite MF in BO. destruct BO as (IX & MI).
  exists q. do 7 (split; [auto|]). split; [|apply mirrored_reflect; auto].
  destruct (FO _ _ _ _ J J') as (ST & _). assert (IW : In w' (f_rows (get_results t'))) by (apply nth_error_In in J'; apply in_rows_with_id in J'; tauto).
  destruct (LG _ IW) as (_ & _ & l & L & EN & _). exists (ray_offset_value + l). split; [unfold ray_offset_value; lra|].
  unfold beyond. rewrite EN, ST. destruct (row_end w) as [a1 a2 a3 a4], (row_tilt w') as [b1 b2 b3 b4]. cbn [vw] in D'. subst b4.
  unfold here, vset_w, vadd, vscale; cbn [vx vy vz vw]. f_equal; ring.
Qed.
(** the same seen from the mirror *)
Lemma reflected_in : forall m n d, isometry m -> vw n = 0 -> vw d = 0 ->
  vsub (mapply m d) (vscale (2 * vdot (mapply m d) (mapply m n)) (mapply m n)) = mapply m (vsub d (vscale (2 * vdot d n) n)).
Proof. intros m n d ISO N D. rewrite mapply_sub, (iso_dot m ISO) by auto. f_equal. destruct n as [b1 b2 b3 b4]. unfold mapply, vscale, vdot. cbn [vx vy vz vw]. f_equal; ring. Qed.
Lemma map_add : forall m a b, mapply m (vadd a b) = vadd (mapply m a) (mapply m b).
Proof. intros m a b. destruct a as [a1 a2 a3 a4], b as [b1 b2 b3 b4]. unfold mapply, vadd, vdot; cbn [vx vy vz vw]. f_equal; ring. Qed.
Lemma map_scale : forall m k a, mapply m (vscale k a) = vscale k (mapply m a).
Proof. intros m k a. destruct a as [a1 a2 a3 a4]. unfold mapply, vscale, vdot; cbn [vx vy vz vw]. f_equal; ring. Qed.

(** ** Parabolic mirrors *)
Lemma para_part : forall asort f t ap off, argsort_ok asort -> ap_ok ap -> 0 <= t -> 0 < f -> 1 / 10000000 <= reach ap * reach ap / (4 * f) ->
  built asort (parabolic_mirror f t ap off Mirror) (fun s => exists fa fb, surface_ids s = [fa] ++ [fb] /\ surf_ok fb /\ s_mat fb = Mirror /\
    forall q, on_paraboloid f ap off q -> let N := sqrt (vy q * vy q + vz q * vz q + 4 * (f * f)) in let n := V4 (2 * f / N) (- vy q / N) (- vz q / N) 0 in
      world_normal fb q = Some n /\ unit n /\ vw n = 0).
Proof.
  intros asort f t ap off AS A T F Big. eapply built_more; [|apply para_shape; auto].
  intros s TO BC (p & Ep & E). destruct (erase_diff _ _ _ E) as (i & b & l & rr & -> & El & Er). pose proof TO as [TOl TOr].
  destruct (erase_leaf _ _ _ _ _ _ _ El TOl) as (fa & ba & -> & TA & OA). destruct (erase_leaf _ _ _ _ _ _ _ Er TOr) as (fb & bb & -> & TB & OB).
  set (g := para_front f ap off) in *.
  exists fa, fb. split; [reflexivity|]. split; [exact OB|]. split; [apply TB|].
  intros q (y & z & I & ->). cbn [pt vx vy vz vw]. pose proof (para_strict f ap off y z A F I) as WG. fold g in WG.
  assert (G1 : 1 / 10000000 <= g).
  { eapply Rle_trans; [exact Big|]. unfold g, para_front, Rdiv. rewrite Rmult_1_l, (Rmult_comm (/ (4 * f))). apply Rmult_le_compat_r; [left; apply Rinv_0_lt_compat; lra|].
    pose proof (reach_edge ap off A). pose proof (reach_pos ap A). nra. }
  set (w := (y * y + z * z) / (4 * f)) in *.
  assert (W0 : 0 <= w) by (apply Rmult_le_pos; [nra|left; apply Rinv_0_lt_compat; lra]).
  assert (NC : isclose w (15 / 10 * g) = false).
  { unfold isclose. apply rleb_false. rewrite (Rabs_right (15 / 10 * g)) by lra. rewrite Rabs_left by lra. unfold rtol. pose proof atol_small. lra. }
  assert (P : 0 < y * y + z * z + 4 * (f * f)) by nra.
  destruct (para_normal f (15 / 10 * g) y z w F NC) as (N & N0 & N2 & PN).
  assert (EN : sqrt (y * y + z * z + 4 * (f * f)) = N) by (rewrite <- N2; apply sqrt_square; lra). rewrite EN.
  split; [|split; [|reflexivity]].
  - rewrite (turned_normal fb _ _ _ _ _ _ (w - f) y z (V4 (y / N) (z / N) (-2 * f / N) 0) TB).
    + cbn [vx vy vz]. f_equal. f_equal; field; lra.
    + replace (w - f - - f) with w by ring. rewrite !Rminus_0_r. exact PN.
    + reflexivity.
    + unfold unit, vdot; cbn [vx vy vz vw]. transitivity ((y * y + z * z + 4 * (f * f)) / (N * N)); [field; lra|]. rewrite <- N2. field. lra.
  - unfold unit, vdot; cbn [vx vy vz vw]. transitivity ((y * y + z * z + 4 * (f * f)) / (N * N)); [field; lra|]. rewrite <- N2. field. lra.
Qed.
Theorem para_traced : forall asort f t ap off, argsort_ok asort -> ap_ok ap -> 0 <= t -> 0 < f -> 1 / 10000000 <= reach ap * reach ap / (4 * f) ->
  built asort (parabolic_mirror f t ap off Mirror) (fun s0 => forall m w w', isometry m -> reflected asort s0 m (on_paraboloid f ap off) w w' ->
    row_idx w' = row_idx w /\
    (row_tilt w = mapply m (V4 (-1) 0 0 0) -> 0 < 2 * f + depth_of m w /\ beyond w w' (2 * f + depth_of m w) = mapply m (pt 0 0 0)) /\
    (forall c, 0 < c -> here (row_end w) = vadd (mapply m (pt 0 0 0)) (vscale c (row_tilt w)) -> c = 2 * f + depth_of m w /\ row_tilt w' = mapply m (V4 1 0 0 0))).
Proof.
  intros asort f t ap off AS A T F Big. generalize (para_part asort f t ap off AS A T F Big). apply built_ok. intros s0 TO (fa & fb & SI & OK & MA & NO) m w w' ISO RF.
  destruct (reflected_at asort AS s0 _ fb _ _ m w w' SI OK MA ISO RF NO) as (q & (y & z & I & Q) & H & U & D & U' & D' & IX & _ & E).
  split; [exact IX|]. set (k := (y * y + z * z) / (4 * f)) in *. assert (K : y * y + z * z = 4 * f * k) by (unfold k; field; lra).
  assert (K0 : 0 <= k) by (apply Rmult_le_pos; [nra|left; apply Rinv_0_lt_compat; lra]).
  rewrite Q in E, H. cbn [pt vx vy vz] in E. set (N := sqrt (y * y + z * z + 4 * (f * f))) in *.
  assert (N2 : N * N = 4 * f * (k + f)) by (unfold N; rewrite sqrt_sqrt by nra; rewrite K; ring).
  assert (N0 : 0 < N) by (apply sqrt_lt_R0; nra).
  assert (DE : depth_of m w = k - f).
  { unfold depth_of. rewrite H, <- mapply_sub, (iso_dot m ISO); unfold pt, vsub, vadd, vopp, vscale, vdot; cbn [vx vy vz vw]; ring. }
  split.
  - intros TI. rewrite DE. split; [lra|]. rewrite TI, reflected_in in E by (auto; reflexivity).
    unfold beyond. rewrite H, E, <- map_scale, <- map_add. f_equal. unfold pt, vsub, vadd, vopp, vscale, vdot; cbn [vx vy vz vw].
    assert (X : forall a b, a / N * (b / N) = a * b / (4 * f * (k + f))) by (intros; rewrite <- N2; field; lra).
    f_equal.
    + transitivity (k - f + (2 * f + (k - f)) * (-1 + 4 * f * (2 * f / N * (1 / N)))); [field; lra|]. rewrite X. field. lra.
    + transitivity (y + (2 * f + (k - f)) * (2 * (2 * f / N * (- y / N)))); [field; lra|]. rewrite X. field. lra.
    + transitivity (z + (2 * f + (k - f)) * (2 * (2 * f / N * (- z / N)))); [field; lra|]. rewrite X. field. lra.
    + ring.
  - intros c C HE. rewrite H in HE.
    assert (QE : vscale c (row_tilt w) = mapply m (V4 (k - f) y z 0)).
    { assert (V : V4 (k - f) y z 0 = vsub (pt (k - f) y z) (pt 0 0 0)) by (unfold pt, vsub, vadd, vopp, vscale; cbn [vx vy vz vw]; f_equal; ring).
      rewrite V, mapply_sub, HE. destruct (mapply m (pt 0 0 0)) as [a1 a2 a3 a4], (row_tilt w) as [b1 b2 b3 b4]. unfold vsub, vadd, vopp, vscale; cbn [vx vy vz vw]. f_equal; ring. }
    assert (CC : c = k + f).
    { assert (L : vdot (vscale c (row_tilt w)) (vscale c (row_tilt w)) = c * c) by (rewrite vdot_scale_l; transitivity (c * (c * vdot (row_tilt w) (row_tilt w))); [unfold vdot, vscale; cbn [vx vy vz vw]; ring|unfold unit in U; rewrite U; ring]).
      rewrite QE, (iso_dot m ISO) in L by reflexivity. unfold vdot in L; cbn [vx vy vz vw] in L.
      assert (S : c * c = (k + f) * (k + f)) by (rewrite <- L; transitivity ((k - f) * (k - f) + (y * y + z * z)); [ring|rewrite K; ring]).
      assert (Z0 : (c - (k + f)) * (c + (k + f)) = 0) by lra. apply Rmult_integral in Z0. lra. }
    split; [lra|]. subst c. assert (TE : row_tilt w = mapply m (vscale (/ (k + f)) (V4 (k - f) y z 0))).
    { rewrite map_scale, <- QE. destruct (row_tilt w) as [b1 b2 b3 b4]. unfold vscale; cbn [vx vy vz vw]. f_equal; field; lra. }
    rewrite E, TE, reflected_in by (auto; unfold vscale; cbn [vw]; ring). f_equal.
    unfold vsub, vadd, vopp, vscale, vdot; cbn [vx vy vz vw].
    assert (X : forall a b, a / N * (b / N) = a * b / (4 * f * (k + f))) by (intros; rewrite <- N2; field; lra).
    assert (S : forall e, 2 * (/ (k + f) * (k - f) * (2 * f / N) + / (k + f) * y * (- y / N) + / (k + f) * z * (- z / N) + / (k + f) * 0 * 0) * (e / N) = - e / (k + f)).
    { intro e. transitivity (2 / (k + f) * ((k - f) * (2 * f) - (y * y + z * z)) * (1 / N * (e / N))); [field; lra|]. rewrite X, K. field. lra. }
    rewrite !S. f_equal; field; lra.
Qed.

(** ** Two parabolic mirrors with one focus *)
Theorem confocal_traced : forall asort f1 t1 ap1 off1 f2 t2 ap2 off2, argsort_ok asort -> ap_ok ap1 -> 0 <= t1 -> 0 < f1 -> 1 / 10000000 <= reach ap1 * reach ap1 / (4 * f1) ->
  ap_ok ap2 -> 0 <= t2 -> 0 < f2 -> 1 / 10000000 <= reach ap2 * reach ap2 / (4 * f2) ->
  built asort (parabolic_mirror f1 t1 ap1 off1 Mirror) (fun s1 => built asort (parabolic_mirror f2 t2 ap2 off2 Mirror) (fun s2 =>
    forall m1 m2 w1 w2 w3, isometry m1 -> isometry m2 -> mapply m1 (pt 0 0 0) = mapply m2 (pt 0 0 0) ->
    reflected asort s1 m1 (on_paraboloid f1 ap1 off1) w1 w2 -> reflected asort s2 m2 (on_paraboloid f2 ap2 off2) w2 w3 ->
    row_tilt w1 = mapply m1 (V4 (-1) 0 0 0) -> 2 * f1 + depth_of m1 w1 < vnorm (vsub (here (row_end w2)) (here (row_end w1))) ->
    row_tilt w3 = mapply m2 (V4 1 0 0 0) /\
    vnorm (vsub (here (row_end w2)) (here (row_end w1))) = (2 * f1 + depth_of m1 w1) + (2 * f2 + depth_of m2 w2))).
Proof.
  intros asort f1 t1 ap1 off1 f2 t2 ap2 off2 AS A1 T1 F1 B1 A2 T2 F2 B2.
  assert (BB : built asort (parabolic_mirror f1 t1 ap1 off1 Mirror) (fun s1 => (exists fa fb, surface_ids s1 = [fa] ++ [fb] /\ surf_ok fb /\ s_mat fb = Mirror /\
      forall q, on_paraboloid f1 ap1 off1 q -> let N := sqrt (vy q * vy q + vz q * vz q + 4 * (f1 * f1)) in let n := V4 (2 * f1 / N) (- vy q / N) (- vz q / N) 0 in
      world_normal fb q = Some n /\ unit n /\ vw n = 0) /\
    forall m w w', isometry m -> reflected asort s1 m (on_paraboloid f1 ap1 off1) w w' ->
    row_tilt w = mapply m (V4 (-1) 0 0 0) -> beyond w w' (2 * f1 + depth_of m w) = mapply m (pt 0 0 0))).
  { eapply built_ok; [|exact (built_both _ _ _ _ (para_part asort f1 t1 ap1 off1 AS A1 T1 F1 B1) (para_traced asort f1 t1 ap1 off1 AS A1 T1 F1 B1))].
    intros s TO (P1 & P2). split; [exact P1|]. intros m w w' ISO R TI. apply (P2 m w w' ISO R). exact TI. }
  revert BB. apply built_ok. intros s1 _ ((fa & fb & SI & OK & MA & NO) & PA).
  generalize (para_traced asort f2 t2 ap2 off2 AS A2 T2 F2 B2). apply built_ok. intros s2 _ PB m1 m2 w1 w2 w3 I1 I2 FE R1 R2 TI FAR.
  destruct (reflected_at asort AS s1 _ fb _ _ m1 w1 w2 SI OK MA I1 R1 NO) as (q & _ & H & U & D & U' & D' & IX & (l & L & EL) & _).
  pose proof (PA m1 w1 w2 I1 R1 TI) as FO. unfold beyond in FO, EL.
  assert (DI : vsub (here (row_end w2)) (here (row_end w1)) = vscale l (row_tilt w2)).
  { rewrite EL. destruct (here (row_end w1)) as [a1 a2 a3 a4], (row_tilt w2) as [b1 b2 b3 b4]. unfold vsub, vadd, vopp, vscale; cbn [vx vy vz vw]. f_equal; ring. }
  assert (NL : vnorm (vsub (here (row_end w2)) (here (row_end w1))) = l).
  { rewrite DI. unfold vnorm. replace (vdot (vscale l (row_tilt w2)) (vscale l (row_tilt w2))) with (l * l); [apply sqrt_square; lra|].
    transitivity (l * l * vdot (row_tilt w2) (row_tilt w2)); [unfold unit in U'; rewrite U'; ring|unfold vdot, vscale; cbn [vx vy vz vw]; ring]. }
  rewrite NL in *. set (a := 2 * f1 + depth_of m1 w1) in *.
  destruct (PB m2 w2 w3 I2 R2) as (_ & _ & K). destruct (K (l - a)) as (EC & TE).
  - lra.
  - rewrite <- FE, <- FO, EL. destruct (here (row_end w1)) as [a1 a2 a3 a4], (row_tilt w2) as [b1 b2 b3 b4]. unfold vadd, vscale; cbn [vx vy vz vw]. f_equal; ring.
  - split; [exact TE|lra].
Qed.

(** ** Spherical mirrors *)
Lemma sphere_part : forall asort r t ap off, argsort_ok asort -> ap_ok ap -> 0 <= t -> r <> 0 -> sqrt (fst off * fst off + snd off * snd off) + SpecComponents.reach ap <= Rabs r ->
  built asort (spherical_mirror (Fin r) t ap off Mirror) (fun s => exists fa fb, surface_ids s = [fa] ++ [fb] /\ surf_ok fb /\ s_mat fb = Mirror /\
    forall q, on_sphere r ap off q -> let n := vscale (/ Rabs r) (V4 (r - vx q) (- vy q) (- vz q) 0) in world_normal fb q = Some n /\ unit n /\ vw n = 0).
Proof.
  intros asort r t ap off AS A T R0 F. eapply built_more; [|apply spherical_shape; auto].
  intros s TO BC (p & Ep & E). destruct (erase_diff _ _ _ E) as (i & b & l & rr & -> & El & Er). pose proof TO as [TOl TOr].
  destruct (erase_leaf _ _ _ _ _ _ _ El TOl) as (fa & ba & -> & TA & OA). destruct (erase_leaf _ _ _ _ _ _ _ Er TOr) as (fb & bb & -> & TB & OB).
  exists fa, fb. split; [reflexivity|]. split; [exact OB|]. split; [apply TB|].
  intros q (y & z & I & ->). cbn [pt vx vy vz vw]. pose proof (off_reach_strict ap off _ _ A I) as ST.
  set (a := Rabs r) in *. assert (A0 : 0 < a) by (apply Rabs_pos_lt; exact R0). assert (AA : a * a = r * r) by apply abs_sq.
  set (h := sqrt (fst off * fst off + snd off * snd off) + SpecComponents.reach ap) in *.
  assert (H0 : 0 < h) by (unfold h; pose proof (reach_pos ap A); pose proof (sqrt_pos (fst off * fst off + snd off * snd off)); lra).
  assert (KA : 0 < r * r - (y * y + z * z)) by nra.
  assert (SQ : (r - sag (Fin r) (y * y + z * z)) * (r - sag (Fin r) (y * y + z * z)) = r * r - (y * y + z * z)).
  { pose proof (sqrt_sqrt (r * r - (y * y + z * z)) ltac:(lra)) as SS. unfold sag. destruct (rltb 0 r); [transitivity (sqrt (r * r - (y * y + z * z)) * sqrt (r * r - (y * y + z * z))); [ring|exact SS]|transitivity (sqrt (r * r - (y * y + z * z)) * sqrt (r * r - (y * y + z * z))); [ring|exact SS]]. }
  set (x := sag (Fin r) (y * y + z * z)) in *.
  assert (UN : (y / a) * (y / a) + (z / a) * (z / a) + ((x - r) / a) * ((x - r) / a) = 1).
  { transitivity ((y * y + z * z + (r - x) * (r - x)) / (a * a)); [field; lra|]. rewrite SQ, AA. field. exact R0. }
  split; [|split].
  - rewrite (turned_normal fb _ _ _ _ _ _ x y z (V4 (y / a) (z / a) ((x - r) / a) 0) TB).
    + unfold vscale. cbn [vx vy vz vw]. f_equal. f_equal; field; lra.
    + pose proof (sphere_normal_unit a (y / a) (z / a) ((x - r) / a) a A0 UN) as P. rewrite <- P. f_equal. unfold pt. f_equal; field; lra.
    + reflexivity.
    + unfold unit, vdot; cbn [vx vy vz vw]. lra.
  - unfold unit, vdot, vscale; cbn [vx vy vz vw]. rewrite <- UN. field. lra.
  - unfold vscale; cbn [vw]. ring.
Qed.
Theorem sphere_traced : forall asort r t ap off, argsort_ok asort -> ap_ok ap -> 0 <= t -> r <> 0 -> sqrt (fst off * fst off + snd off * snd off) + SpecComponents.reach ap <= Rabs r ->
  built asort (spherical_mirror (Fin r) t ap off Mirror) (fun s0 => forall m w w', isometry m -> reflected asort s0 m (on_sphere r ap off) w w' ->
    row_idx w' = row_idx w /\
    ((exists c, here (row_end w) = vadd (mapply m (pt r 0 0)) (vscale c (row_tilt w))) -> row_tilt w' = vopp (row_tilt w)) /\
    (row_tilt w = mapply m (V4 (- (r / Rabs r)) 0 0 0) -> let k := Rabs (r - depth_of m w) in let focus := r - r * Rabs r / (2 * k) in
       0 < k <= Rabs r /\ beyond w w' (r * r / (2 * k)) = mapply m (pt focus 0 0) /\ Rabs (focus - r / 2) <= (r * r - k * k) / (2 * k))).
Proof.
  intros asort r t ap off AS A T R0 F. generalize (sphere_part asort r t ap off AS A T R0 F). apply built_ok. intros s0 TO (fa & fb & SI & OK & MA & NO) m w w' ISO RF.
  destruct (reflected_at asort AS s0 _ fb _ _ m w w' SI OK MA ISO RF NO) as (q & (y & z & I & Q) & H & U & D & U' & D' & IX & _ & E).
  split; [exact IX|]. pose proof (off_reach_strict ap off _ _ A I) as ST.
  set (a := Rabs r) in *. assert (A0 : 0 < a) by (apply Rabs_pos_lt; exact R0). assert (AA : a * a = r * r) by apply abs_sq.
  set (h := sqrt (fst off * fst off + snd off * snd off) + SpecComponents.reach ap) in *.
  assert (H0 : 0 < h) by (unfold h; pose proof (reach_pos ap A); pose proof (sqrt_pos (fst off * fst off + snd off * snd off)); lra).
  assert (KA : 0 < r * r - (y * y + z * z)) by nra.
  pose proof (sqrt_sqrt (r * r - (y * y + z * z)) ltac:(lra)) as SS. pose proof (sqrt_lt_R0 _ KA) as SP. set (k := sqrt (r * r - (y * y + z * z))) in *.
  assert (SX : sag (Fin r) (y * y + z * z) = r - r / a * k).
  { unfold sag. fold k. destruct (Rcase_abs r) as [N|P].
    - rewrite (proj2 (rltb_false 0 r)) by lra. unfold a. rewrite Rabs_left by lra. field. lra.
    - rewrite (proj2 (rltb_true 0 r)) by lra. unfold a. rewrite Rabs_right by lra. field. lra. }
  rewrite SX in Q. rewrite Q in E, H. cbn [pt vx vy vz] in E. set (x := r - r / a * k) in *.
  assert (SG : r / a * (r / a) = 1) by (transitivity (r * r / (a * a)); [field; lra|rewrite AA; field; exact R0]).
  assert (RX : (r - x) * (r - x) = k * k) by (unfold x; transitivity (r / a * (r / a) * (k * k)); [ring|rewrite SG; ring]).
  assert (DE : depth_of m w = x).
  { unfold depth_of. rewrite H, <- mapply_sub, (iso_dot m ISO); unfold pt, vsub, vadd, vopp, vscale, vdot; cbn [vx vy vz vw]; ring. }
  assert (KE : Rabs (r - x) = k).
  { unfold x. replace (r - (r - r / a * k)) with (r / a * k) by ring. rewrite Rabs_mult, (Rabs_right k) by lra. unfold Rdiv. rewrite Rabs_mult. fold a. rewrite Rabs_right by (left; apply Rinv_0_lt_compat; auto). field. lra. }
  set (n := vscale (/ a) (V4 (r - x) (- y) (- z) 0)) in *.
  assert (VN : vw n = 0) by (unfold n, vscale; cbn [vw]; ring).
  split.
  - intros (c & HE). rewrite H in HE.
    assert (QE : vscale c (row_tilt w) = mapply m (V4 (x - r) y z 0)).
    { assert (V : V4 (x - r) y z 0 = vsub (pt x y z) (pt r 0 0)) by (unfold pt, vsub, vadd, vopp, vscale; cbn [vx vy vz vw]; f_equal; ring).
      rewrite V, mapply_sub, HE. destruct (mapply m (pt r 0 0)) as [a1 a2 a3 a4], (row_tilt w) as [b1 b2 b3 b4]. unfold vsub, vadd, vopp, vscale; cbn [vx vy vz vw]. f_equal; ring. }
    assert (CC : c * c = a * a).
    { assert (L : vdot (vscale c (row_tilt w)) (vscale c (row_tilt w)) = c * c) by (transitivity (c * c * vdot (row_tilt w) (row_tilt w)); [unfold vdot, vscale; cbn [vx vy vz vw]; ring|unfold unit in U; rewrite U; ring]).
      rewrite QE, (iso_dot m ISO) in L by reflexivity. unfold vdot in L; cbn [vx vy vz vw] in L. rewrite AA. rewrite <- L. transitivity ((r - x) * (r - x) + (y * y + z * z)); [ring|rewrite RX; lra]. }
    assert (NE : mapply m n = vscale (- c / a) (row_tilt w)).
    { unfold n. rewrite map_scale. replace (V4 (r - x) (- y) (- z) 0) with (vscale (-1) (V4 (x - r) y z 0)) by (unfold vscale; cbn [vx vy vz vw]; f_equal; ring).
      rewrite map_scale, <- QE. destruct (row_tilt w) as [b1 b2 b3 b4]. unfold vscale; cbn [vx vy vz vw]. f_equal; field; lra. }
    rewrite E, NE. unfold unit in U. assert (DD : vdot (row_tilt w) (vscale (- c / a) (row_tilt w)) = - c / a) by (transitivity (- c / a * vdot (row_tilt w) (row_tilt w)); [unfold vdot, vscale; cbn [vx vy vz vw]; ring|rewrite U; ring]).
    rewrite DD. assert (S1 : - c / a * (- c / a) = 1) by (transitivity (c * c / (a * a)); [field; lra|rewrite CC; field; lra]).
    destruct (row_tilt w) as [b1 b2 b3 b4]. unfold vsub, vadd, vopp, vscale; cbn [vx vy vz vw].
    assert (G : forall e, e + -1 * (2 * (- c / a) * (- c / a * e)) = -1 * e) by (intro e; transitivity (e - 2 * (- c / a * (- c / a)) * e); [ring|rewrite S1; ring]).
    f_equal; apply G.
  - intros TI. rewrite DE. cbv zeta. rewrite KE. assert (KL : k <= a) by nra. split; [split; auto|].
    rewrite TI, reflected_in in E by (auto; reflexivity). split.
    + unfold beyond. rewrite H, E, <- map_scale, <- map_add. f_equal. unfold n, pt, vsub, vadd, vopp, vscale, vdot; cbn [vx vy vz vw].
      assert (RA : r / a = (r - x) / k) by (unfold x; field; split; lra).
      set (g := r / a) in *. assert (RG : r = g * a) by (unfold g; field; lra). assert (XG : r - x = g * k) by (unfold x; ring).
      rewrite XG. replace (- g * (/ a * (g * k)) + 0 * (/ a * - y) + 0 * (/ a * - z) + 0 * (/ a * 0)) with (- (g * g) * (k / a)) by (field; lra). rewrite SG.
      replace x with (r - g * k) by lra. rewrite <- AA. f_equal; [|field; lra|field; lra|field; lra].
      transitivity (r - g * a * a / (2 * k)); [field; split; lra|]. rewrite RG. field. lra.
    + replace (r - r * a / (2 * k) - r / 2) with (- (r * ((a - k) / (2 * k)))) by (field; lra). rewrite Rabs_Ropp, Rabs_mult. fold a. rewrite Rabs_right.
      * replace ((r * r - k * k) / (2 * k)) with ((a + k) * ((a - k) / (2 * k))) by (rewrite <- AA; field; lra). apply Rmult_le_compat_r; [|lra]. apply Rmult_le_pos; [lra|]. left. apply Rinv_0_lt_compat. lra.
      * apply Rle_ge. apply Rmult_le_pos; [lra|]. left. apply Rinv_0_lt_compat. lra.
Qed.

(** ** Plane mirrors *)
Theorem plate_traced : forall asort t ap off, argsort_ok asort -> ap_ok ap -> 3 / 100000000 <= t ->
  built asort (plane_mirror t ap off Mirror) (fun s0 => forall side m w w', side = t / 2 \/ side = - (t / 2) -> isometry m -> reflected asort s0 m (on_plate side ap off) w w' ->
    row_idx w' = row_idx w /\
    forall c x y z, here (row_end w) = vadd (mapply m (pt x y z)) (vscale c (row_tilt w)) -> here (row_end w) = vadd (mapply m (pt (2 * side - x) y z)) (vscale c (row_tilt w'))).
Proof.
  intros asort t ap off AS A T. eapply built_more; [|apply plane_shape; auto; lra].
  intros s TO BC (p & Ep & E0). destruct (erase_leaf _ _ _ _ _ _ _ E0 TO) as (f & b & -> & TF & OK). intros side m w w' SI ISO RF.
  assert (SG : exists sg, (sg = 1 \/ sg = -1) /\ side = sg * (t / 2)) by (destruct SI as [-> | ->]; [exists 1|exists (-1)]; split; auto; ring).
  destruct SG as (sg & SG & SE).
  assert (NO : forall q, on_plate side ap off q -> world_normal f q = Some (V4 sg 0 0 0) /\ unit (V4 sg 0 0 0) /\ vw (V4 sg 0 0 0) = 0).
  { intros q (y & z & W & ->). rewrite SE. split; [apply (plate_normal f p Mirror ap off t A ltac:(lra) Ep TF _ _ sg SG T W)|]. split; [|reflexivity]. unfold unit, vdot; cbn [vx vy vz vw]. destruct SG as [-> | ->]; ring. }
  destruct (reflected_at asort AS (Leaf f b) [] f _ (fun _ => V4 sg 0 0 0) m w w' eq_refl OK ltac:(apply TF) ISO RF NO) as (q & (y0 & z0 & _ & Q) & H & U & D & U' & D' & IX & _ & E).
  split; [exact IX|]. intros c x y z HE.
  assert (CT : vscale c (row_tilt w) = mapply m (V4 (side - x) (y0 - y) (z0 - z) 0)).
  { assert (V : V4 (side - x) (y0 - y) (z0 - z) 0 = vsub q (pt x y z)) by (rewrite Q; unfold pt, vsub, vadd, vopp, vscale; cbn [vx vy vz vw]; f_equal; ring).
    rewrite V, mapply_sub, <- H, HE. destruct (mapply m (pt x y z)) as [a1 a2 a3 a4], (row_tilt w) as [b1 b2 b3 b4]. unfold vsub, vadd, vopp, vscale; cbn [vx vy vz vw]. f_equal; ring. }
  assert (CT' : vscale c (row_tilt w') = vsub (vscale c (row_tilt w)) (vscale (2 * vdot (vscale c (row_tilt w)) (mapply m (V4 sg 0 0 0))) (mapply m (V4 sg 0 0 0)))).
  { rewrite E. destruct (row_tilt w) as [b1 b2 b3 b4], (mapply m (V4 sg 0 0 0)) as [a1 a2 a3 a4]. unfold vsub, vadd, vopp, vscale, vdot; cbn [vx vy vz vw]. f_equal; ring. }
  rewrite CT', CT, reflected_in, <- map_add by (auto; reflexivity). rewrite H, Q. f_equal. unfold pt, vsub, vadd, vopp, vscale, vdot; cbn [vx vy vz vw].
  destruct SG as [-> | ->]; f_equal; ring.
Qed.
