(** * BandProps: what the primitives report for every ray *)
From Coq Require Import Reals Lra Lia List Bool ZArith Psatz.
Import ListNotations.
From Coq Require Classical_Prop.
From Verif Require ComponentProps PrismProps.
From Verif Require Import XR XRFacts Ops SpecOptics OpsFacts Lin LinFacts Prim Csg SpecCsg CsgProps Surf SpecGeom SpecTree PrimFacts PrimFacts2 SpecBand BandFacts
  World SpecWorld Components SpecComponents ComponentFacts ComponentFacts2 ComponentOptics BandLens.
Open Scope R_scope.

Lemma cube_every : forall x0 x1 y0 y1 z0 z1 r, moving (straightened r) ->
  let hits := prim_hits (PCube (x0, y0, z0) (x1, y1, z1)) r in
  let S t := solid (PCube (x0, y0, z0) (x1, y1, z1)) (ray_at (straightened r) t) in
  (exists t0 t1, hits = (Fin t0, Fin t1) /\ t0 < t1 /\ forall t, S t <-> t0 <= t <= t1) \/
  (hits = (PInf, PInf) /\ forall t t', S t -> S t' -> t = t').
Proof.
  intros x0 x1 y0 y1 z0 z1 r M hits S. unfold hits. rewrite cube_band. apply (cube_prim_exact x0 x1 y0 y1 z0 z1 (straightened r) M).
  repeat split; apply no_less_clear.
Qed.
Lemma plane_every : forall w l r, 0 <= w -> 0 <= l ->
  (/ 100000000 < Rabs (vz (direction r)) ->
     answers (prim_hits (PPlane w l) r) (fun t => solid (PPlane w l) (ray_at (straightened r) t)) /\
     fst (prim_hits (PPlane w l) r) = snd (prim_hits (PPlane w l) r)) /\
  (Rabs (vz (direction r)) <= / 100000000 -> prim_hits (PPlane w l) r = (PInf, PInf)).
Proof.
  intros w l r W L. rewrite plane_band. destruct (plane_prim_exact w l (straightened r) W L) as [A B]; [repeat split; apply no_less_clear|].
  assert (E : vz (direction (straightened r)) = no_less (vz (direction r))) by reflexivity. rewrite E in A, B.
  unfold no_less in A, B. destruct (Rle_dec _ _) as [Q|Q]; split; intro H; try lra.
  - apply B. reflexivity.
  - apply A. intro Z. rewrite Z, Rabs_R0 in H. lra.
Qed.

Lemma cylinder_steep : forall rad lo hi cap r, lo <= hi -> / 100000000 < across r ->
  answers (prim_hits (PCylinder rad lo hi cap) r) (fun t => solid (PCylinder rad lo hi cap) (ray_at (flattened r) t)).
Proof.
  intros rad lo hi cap r LH A. rewrite cylinder_flat. apply cylinder_hits_exact; auto.
  - unfold moving, flattened, across in *; cbn [direction vx vy vz]. intros (X & Y & _). rewrite X, Y in A. lra.
  - unfold clear_ray, flattened, across in *; cbn [direction vx vy vz]. split; [|apply no_less_clear]. right. unfold atol. rewrite Rabs_right; lra.
Qed.
Lemma cylinder_along : forall rad lo hi cap r, lo <= hi -> across r <= / 100000000 -> Rabs (approach r) <= / 100000000 -> / 100000000 < Rabs (vz (direction r)) ->
  answers (prim_hits (PCylinder rad lo hi cap) r) (fun t => solid (PCylinder rad lo hi cap) (ray_at (axial r) t)).
Proof.
  intros rad lo hi cap r LH A B D. rewrite cylinder_axial by auto. apply cylinder_hits_exact; auto.
  - unfold moving, axial; cbn [direction vx vy vz]. intros (_ & _ & Z). unfold no_less in Z. destruct (Rle_dec _ _); [lra|]. rewrite Z, Rabs_R0 in D. lra.
  - unfold clear_ray, axial; cbn [direction vx vy vz]. split; [left; ring|apply no_less_clear].
Qed.

Lemma bowl_steep : forall f h r, 0 < f -> 0 < h -> / 100000000 < across r ->
  answers (prim_hits (PParaboloid f h) r) (fun t => bowl_height f (ray_at r t) <= 0 /\ 0 <= vz (ray_at (flattened r) t) <= h).
Proof.
  intros f h [[ox oy oz ow] [dx dy dz dw]] Hf Hh A. unfold across, bowl_height, flattened, ray_at in *; cbn [prim_hits origin direction vx vy vz vw] in *.
  unfold paraboloid_hits, parabola_hits; cbn [origin direction vx vy vz vw]. rewrite z_clip_band.
  pose proof (z_clip_describes 0 h oz (no_less dz) ltac:(lra) (no_less_clear dz)) as D2.
  set (a := dx * dx + dy * dy) in *. set (b := 2 * (ox * dx + oy * dy) - 4 * f * dz). set (c := ox * ox + oy * oy - 4 * f * oz).
  assert (Hc : isclose a 0 = false) by (apply isclose0_false; unfold atol; rewrite Rabs_right; lra).
  rewrite Hc. unfold b2r at 1 2. rewrite Rplus_0_r.
  assert (E : forall t, (ox + t * dx) * (ox + t * dx) + (oy + t * dy) * (oy + t * dy) - 4 * f * (oz + t * dz) = a * t * t + b * t + c) by (intro; unfold a, b, c; ring).
  set (hs := if rleb 0 (b * b - 4 * a * c) then _ else _).
  assert (K : describes (sort2 hs) (fun t => (ox + t * dx) * (ox + t * dx) + (oy + t * dy) * (oy + t * dy) - 4 * f * (oz + t * dz) <= 0) /\ closed (sort2 hs)).
  { unfold hs. destruct (rleb 0 (b * b - 4 * a * c)) eqn:Ed; rhyps.
    - rewrite Rmax_right by auto. rewrite !xdiv_fin by lra. rewrite sort2_fin.
      destruct (rmin_rmax_ord _ _ (quad_roots_order a b (sqrt (b * b - 4 * a * c)) ltac:(lra) (sqrt_pos _))) as [-> ->].
      split; [|left; eauto]. split; simpl; [apply rleb_true, quad_roots_order; [lra|apply sqrt_pos]|].
      split; [discriminate|]. intro t. unfold in_iv; simpl. rewrite !rleb_true, E. apply quad_neg; auto; lra.
    - split; [|right; auto]. split; auto. split; [discriminate|]. intro t. unfold in_iv; simpl. rewrite E. pose proof (quad_pos a b c t ltac:(lra) Ed).
      split; [lra|intros []; discriminate]. }
  destruct K as [D1 K]. destruct hs as [u0 u1] eqn:Eh. apply describes_answers.
  - rewrite <- (sort2_sort2 (u0, u1)) in D1. exact (clip_describes _ _ _ _ D1 D2).
  - rewrite <- (sort2_sort2 (u0, u1)) in D1, K. eapply clip_closed; eauto.
Qed.
Lemma bowl_along : forall f h r, 0 < f -> 0 < h -> across r <= / 100000000 -> / 100000000 < Rabs (vz (direction r)) ->
  / 100000000 < Rabs (fall f r) -> fall f r * vz (direction r) < 0 ->
  answers (prim_hits (PParaboloid f h) r) (fun t => fall f r * t + bowl_height f (origin r) <= 0 /\ 0 <= vz (ray_at r t) <= h).
Proof.
  intros f h [[ox oy oz ow] [dx dy dz dw]] Hf Hh A Z B N. unfold fall, approach, across, bowl_height, ray_at in *; cbn [prim_hits origin direction vx vy vz vw] in *.
  unfold paraboloid_hits, parabola_hits; cbn [origin direction vx vy vz vw].
  pose proof (z_clip_describes 0 h oz dz ltac:(lra) (or_intror Z)) as D2.
  replace (2 * (dx * ox + dy * oy) - 4 * f * dz) with (2 * (ox * dx + oy * dy) - 4 * f * dz) in * by ring.
  set (a := dx * dx + dy * dy) in *. set (b := 2 * (ox * dx + oy * dy) - 4 * f * dz) in *. set (c := ox * ox + oy * oy - 4 * f * oz).
  assert (Hc : isclose a 0 = true) by (apply isclose0_true; unfold atol; rewrite Rabs_right; [lra|unfold a; nra]).
  assert (Hb : isclose b 0 = false) by (apply isclose0_false; exact B). pose proof (isclose_false_neq _ Hb) as Hbn. rewrite Hc, Hb.
  set (hs := sort2 (xdiv (Fin (- c)) (Fin (b + b2r false)), if rleb 0 dz then PInf else MInf)).
  assert (X : forall t, - c / b = t - (b * t + c) / b) by (intro; field; auto).
  assert (D1 : describes hs (fun t => b * t + c <= 0)).
  { unfold hs. change (b2r false) with 0. rewrite Rplus_0_r, xdiv_fin by auto. destruct (rleb 0 dz) eqn:Ez; rhyps.
    - unfold sort2; simpl. assert (b < 0) by nra. assert (/ b < 0) by (apply Rinv_lt_0_compat; auto).
      split; auto. split; [discriminate|]. intro t. unfold in_iv; simpl. rewrite rleb_true, (X t). unfold Rdiv. split; [intro; split; auto; nra|intros [? _]; nra].
    - unfold sort2; simpl. assert (0 < b) by nra. assert (0 < / b) by (apply Rinv_0_lt_compat; auto).
      split; auto. split; [discriminate|]. intro t. unfold in_iv; simpl. rewrite rleb_true, (X t). unfold Rdiv. split; [intro; split; auto; nra|intros [_ ?]; nra]. }
  assert (G : answers (clip_hits hs (z_clip 0 h oz dz)) (fun t => b * t + c <= 0 /\ 0 <= oz + t * dz <= h)).
  { unfold hs in *. rewrite <- sort2_sort2 in D1. apply describes_answers; [exact (clip_describes _ _ _ _ D1 D2)|].
    eapply clip_closed; eauto. right. apply z_clip_closed. exact Z. }
  destruct (rleb 0 (b * b - 4 * a * c)); exact G.
Qed.

(** ** Smallest roots *)
Lemma spr_every : forall a b c, / 100000000 < Rabs a ->
  (exists x, smallest_positive_root a b c = Fin x /\ root_of a b c x /\ 0 <= x /\ forall y, root_of a b c y -> 0 <= y -> x <= y) \/
  (smallest_positive_root a b c = PInf /\ ((forall y, root_of a b c y -> y < 0) \/ a < 0 /\ exists x y, root_of a b c x /\ root_of a b c y /\ x < 0 <= y)).
Proof.
  intros a b c A. assert (A' : atol < Rabs a) by (unfold atol; lra).
  assert (K : forall P : Prop, (a < 0 -> ~ P) \/ (a < 0 /\ P)) by (intro P; destruct (Classical_Prop.classic P); destruct (Rlt_dec a 0); tauto).
  destruct (K (exists x y, root_of a b c x /\ root_of a b c y /\ x < 0 <= y)) as [N|(L & x & y & X & Y & O)].
  - destruct (spr_correct a b c A' N) as [H|[H1 H2]]; auto.
  - right. split; [|right; eauto 8]. apply (spr_opposite a b c x y); auto. rewrite Rabs_left in A; lra.
Qed.
Lemma spr_linear : forall b c, smallest_positive_root 0 b c = Fin 0.
Proof.
  intros b c. unfold smallest_positive_root. rewrite isclose0_0. change (b2r true) with 1.
  replace (b * b - 4 * 0 * c) with (Rsqr b) by (unfold Rsqr; ring). rewrite Rmax_right by apply Rle_0_sqr. rewrite sqrt_Rsqr_abs.
  assert (rleb 0 (Rsqr b) = true) as -> by (apply rleb_true, Rle_0_sqr).
  rewrite !xdiv_fin by lra. replace ((- b + Rabs b) / (2 * 0 + 1)) with (- b + Rabs b) by field. replace ((- b - Rabs b) / (2 * 0 + 1)) with (- b - Rabs b) by field.
  cbn [xleb andb]. unfold Rabs. destruct (Rcase_abs b) as [L|L].
  - replace (- b - - b) with 0 by ring. assert (rleb 0 0 = true) as -> by (apply rleb_true; lra). unfold xmin. cbn [xleb].
    assert (E : rleb (- b + - b) 0 = false) by (apply rleb_false; lra). rewrite E. cbn [xleb]. assert (rleb 0 0 = true) as -> by (apply rleb_true; lra). reflexivity.
  - replace (- b + b) with 0 by ring. assert (Z : rleb 0 0 = true) by (apply rleb_true; lra). destruct (rleb 0 (- b - b)) eqn:E.
    + apply rleb_true in E. assert (b = 0) by lra. subst b. unfold xmin. cbn [xleb]. replace (- 0 - 0) with 0 by ring. rewrite Z. cbn [xleb]. rewrite Z. reflexivity.
    + rewrite Z. reflexivity.
Qed.

(** ** A lens and a beam that is 0.003 degrees off its axis *)
Definition tilted : ray := Ray (pt (-20) 1 0) (V4 1 (1 / 20000) 0 0).
Lemma tilted_almost : vw (origin tilted) = 1 /\ vw (direction tilted) = 0 /\ almost_along_x tilted.
Proof.
  unfold tilted, almost_along_x, pt; cbn [origin direction vx vy vz vw]. split; [reflexivity|]. split; [reflexivity|]. split; [lra|].
  rewrite Rabs_right; lra.
Qed.
Lemma lens_missed : forall asort m, argsort_ok asort ->
  built asort (biconvex_lens (Fin 10) (Fin 10) 1 (Round 4) m) (fun s =>
    (forall t, 199 / 10 <= t <= 201 / 10 -> inside s (ray_at tilted t)) /\
    forall t, inside_at xsle (Fin t) (fst (shape_intersect asort s tilted)) = false).
Proof.
  intros asort m AS. destruct ComponentProps.biconvex_example as (R1 & F & K & _).
  eapply built_more; [|exact (PrismProps.built_both asort _ _ _ (biconvex_solid asort 10 1 (Round 4) m AS ltac:(simpl; lra) ltac:(lra) R1 F K)
    (biconvex_overlooked asort AS 10 10 1 4 m ltac:(lra) ltac:(lra) ltac:(lra) ltac:(lra)))].
  cbv beta. intros s _ _ [Fi Ov]. destruct tilted_almost as (W1 & W2 & A). split; [|intro t; apply (Ov tilted W1 W2 A)].
  intros t T. assert (E : ray_at tilted t = pt (-20 + t) (1 + t / 20000) 0).
  { unfold tilted, ray_at, pt; cbn [origin direction vx vy vz vw]. f_equal; field. }
  rewrite E. apply Fi. unfold in_aperture, lens_front, lens_back, sag; cbn [fst snd].
  assert (rltb 0 10 = true) as -> by (apply rltb_true; lra). assert (rltb 0 (- (10)) = false) as -> by (apply rltb_false; lra).
  set (y := 1 + t / 20000). assert (Y : 0 <= y <= 11 / 10) by (unfold y; lra).
  replace (- (10) * - (10)) with (10 * 10) by ring.
  assert (Q : 99 / 10 <= sqrt (10 * 10 - (y * y + 0 * 0))).
  { rewrite <- (sqrt_Rsqr (99 / 10)) by lra. apply sqrt_le_1_alt. unfold Rsqr. nra. }
  split; [nra|]. lra.
Qed.
Lemma linear_case : root_of 0 2 (-6) 3 /\ ~ root_of 0 2 (-6) 0.
Proof. unfold root_of. split; lra. Qed.

Lemma bowl_good : prim_ok (PParaboloid 1 2) /\ moving (Ray (point 0 0 5) (vector 0 (3/5) (- (4/5)))) /\
  good_local (PParaboloid 1 2) (Ray (point 0 0 5) (vector 0 (3/5) (- (4/5)))).
Proof.
  unfold prim_ok, moving, good_local, clear_ray, clear, atol, point, vector; cbn [origin direction vx vy vz]. split; [lra|]. split; [intros (_ & H & _); lra|]. split; [|exact I].
  split; [right; rewrite Rabs_right; lra|]. split; right; rewrite Rabs_left; lra.
Qed.
Definition slanted : ray := Ray (point 0 0 5) (vector 0 (3/5) (- (4/5))).
Definition upright : ray := Ray (point 1 0 (-5)) (vector 0 (1/100000) 1).
Definition leaning : ray := Ray (point 1 0 (-5)) (vector (1/100000) 0 1).
Lemma kinds_case :
  / 100000000 < across slanted /\
  across upright <= / 100000000 /\ Rabs (approach upright) <= / 100000000 /\ / 100000000 < Rabs (vz (direction upright)) /\
  across leaning <= / 100000000 /\ / 100000000 < Rabs (approach leaning) /\ / 100000000 < Rabs (vz (direction leaning)) /\
  / 100000000 < Rabs (fall 1 leaning) /\ fall 1 leaning * vz (direction leaning) < 0.
Proof.
  unfold fall, across, approach, slanted, upright, leaning, point, vector; cbn [origin direction vx vy vz].
  replace (2 * (0 * 1 + 1 / 100000 * 0)) with 0 by lra. rewrite Rabs_R0.
  rewrite (Rabs_right 1) by lra. rewrite (Rabs_right (2 * _)) by lra. rewrite Rabs_left by lra. repeat split; lra.
Qed.
Lemma bowl_dead : forall f h r, vx (direction r) = 0 -> vy (direction r) = 0 -> vz (direction r) = 0 ->
  (0 <= vz (origin r) <= h -> prim_hits (PParaboloid f h) r = (Fin (- bowl_height f (origin r)), PInf)) /\
  (~ 0 <= vz (origin r) <= h -> prim_hits (PParaboloid f h) r = (PInf, PInf)).
Proof.
  intros f h r X Y Z. rewrite (bowl_still f h r X Y Z). unfold bowl_height.
  destruct (rleb 0 (vz (origin r))) eqn:E1; destruct (rleb (vz (origin r)) h) eqn:E2; rhyps; cbn [andb]; split; intro H; try reflexivity; try lra.
  do 2 f_equal. ring.
Qed.
