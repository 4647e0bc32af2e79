(** * ComponentFacts4: baffles, apertures, what every component spans, and what goes wrong *)
From Coq Require Import Reals Lra Lia List Bool ZArith Psatz.
Import ListNotations.
From Verif Require Import XR XRFacts Arr Lin LinFacts Prim Csg Surf SpecGeom SpecTree CsgProps World SpecWorld
  WorldFacts3 WorldFacts5 WorldProps Components SpecComponents BuildFacts ComponentFacts ComponentFacts2 ComponentFacts3.
Open Scope R_scope.

(** ** baffle *)
Definition ry_90 : mat := M4 (V4 0 0 (-1) 0) (V4 0 1 0 0) (V4 1 0 0 0) (V4 0 0 0 1).
Definition rx_90 : mat := M4 (V4 1 0 0 0) (V4 0 0 1 0) (V4 0 (-1) 0 0) (V4 0 0 0 1).
Lemma rot_back : motion_matrix (RotX (-90) Deg) = Some rx_90 /\ motion_matrix (RotY (-90) Deg) = Some ry_90.
Proof.
  cbn. replace (-90 * PI / 180) with (- (PI / 2)) by field. rewrite sin_neg, cos_neg, sin_PI2, cos_PI2. unfold rx_90, ry_90.
  replace (- - (1)) with 1 by ring. replace (- (1)) with (-1) by ring. auto.
Qed.
Lemma inv_ry90 : is_inverse ry90 ry_90.
Proof. split; unfold ry90, ry_90, mmul, mapply, mtrans, vdot, mid; cbn [vx vy vz vw row0 row1 row2 row3]; repeat f_equal; ring. Qed.
Lemma inv_rx_90 : is_inverse rx_90 rx90.
Proof. split; unfold rx90, rx_90, mmul, mapply, mtrans, vdot, mid; cbn [vx vy vz vw row0 row1 row2 row3]; repeat f_equal; ring. Qed.
Lemma map_ry_90 : forall x y z, mapply ry_90 (pt x y z) = pt (- z) y x.
Proof. intros. unfold pt, ry_90, mapply, vdot; cbn [vx vy vz vw row0 row1 row2 row3]. f_equal; ring. Qed.
Lemma map_rx90 : forall x y z, mapply rx90 (pt x y z) = pt x (- z) y.
Proof. intros. unfold pt, rx90, mapply, vdot; cbn [vx vy vz vw row0 row1 row2 row3]. f_equal; ring. Qed.
Lemma baffle_solid : forall asort a b, argsort_ok asort -> 0 <= a -> 0 <= b ->
  built asort (baffle (Pair a b)) (occupies (fun x y z => x = 0 /\ Rabs z <= a / 2 /\ Rabs y <= b / 2)).
Proof.
  intros asort a b AO A B. destruct rot_quarter as (_ & Y & _). unfold baffle.
  change [CSurface (PPlane a b) Absorber; CMotion 0 (RotY 90 Deg)] with ([CSurface (PPlane a b) Absorber] ++ [CMotion 0 (RotY 90 Deg)]).
  apply (built_moved asort _ _ _ [Some (mv ry90 (TLeaf (PPlane a b) Absorber mid 1))] (mv ry90 (TLeaf (PPlane a b) Absorber mid 1))); [exact AO| |reflexivity|reflexivity| |].
  - cbn [app track track_call prim_init nth_error]. rewrite Y. reflexivity.
  - apply prims_ok_mv; [reflexivity|]. split; [split; assumption|reflexivity].
  - intros s _ _ In x y z. rewrite In, (region_mv ry90 ry_90 inv_ry90 eq_refl), map_ry_90, leaf_mid.
    unfold solid, pt; cbn [vx vy vz]. rewrite Rabs_Ropp. tauto.
Qed.

(** ** aperture *)
Definition stop_tree (a b : R) (p : prim) : ptree :=
  TNode DIFFERENCE (TLeaf (PPlane a b) Absorber mid 1) (TLeaf p Untraceable mid (-1)).
Lemma ry_back : mmul ry_90 (mmul ry90 mid) = mid.
Proof. rewrite mmul_mid_r. apply inv_ry90. Qed.
Lemma aperture_built : forall asort a b op p (P : shape -> Prop), argsort_ok asort -> 0 <= a -> 0 <= b -> ap_ok op -> create_aperture op (1 / 10) = Some p ->
  (forall s, erase s = mv rx_90 (mv ry90 (stop_tree a b p)) -> boxes_current s -> (forall q, inside s q <-> region (mv rx_90 (mv ry90 (stop_tree a b p))) q) -> P s) ->
  built asort (aperture (Pair a b) op) P.
Proof.
  intros asort a b op p P AO A B O Ep K. destruct rot_quarter as (X & Y & _). destruct rot_back as [Xn Yn].
  unfold aperture. cbn [baffle]. rewrite Ep. cbn [app].
  match goal with |- built _ (Makes [?a; ?b; ?c; ?d; ?e; ?f; ?g] _) _ =>
    change [a; b; c; d; e; f; g] with ([a; b; c; d; e; f] ++ [g]) end.
  apply (built_moved asort _ _ _ [None; None; Some (mv rx_90 (mv ry90 (stop_tree a b p)))] (mv rx_90 (mv ry90 (stop_tree a b p)))); [exact AO| |reflexivity|reflexivity| |exact K].
  - cbn [app track track_call prim_init nth_error]. rewrite Y. cbn [set_nth track track_call nth_error]. rewrite Yn.
    cbn [set_nth track track_call nth_error]. rewrite (aperture_init _ _ _ Ep). cbn [app track track_call nth_error Nat.eqb set_nth inv mv].
    change (M4 (V4 0 0 1 0) (V4 0 1 0 0) (V4 (-1) 0 0 0) (V4 0 0 0 1)) with ry90. rewrite ry_back.
    cbn [app track track_call nth_error Nat.eqb set_nth inv mv]. rewrite Xn. reflexivity.
  - apply prims_ok_mv; [reflexivity|]. apply prims_ok_mv; [reflexivity|]. split; (split; [|reflexivity]); [split; assumption|].
    eapply aperture_prim_ok; [exact O| |exact Ep]. lra.
Qed.
Lemma in_aperture_neg : forall ap y z, in_aperture ap (0, 0) (- y) (- z) <-> in_aperture ap (0, 0) y z.
Proof.
  intros [d|a b] y z; simpl; rewrite !Rminus_0_r.
  - replace (- y * - y + - z * - z) with (y * y + z * z) by ring. tauto.
  - rewrite !Rabs_Ropp. tauto.
Qed.
Lemma stop_solid : forall asort a b op, argsort_ok asort -> 0 <= a -> 0 <= b -> ap_ok op ->
  built asort (aperture (Pair a b) op) (occupies (fun x y z =>
    x = 0 /\ in_aperture (Pair a b) (0, 0) y z /\ ~ in_aperture op (0, 0) y z)).
Proof.
  intros asort a b op AO A B O. destruct (create_aperture_ok op (1 / 10) O) as (p & Ep).
  apply (aperture_built asort a b op p); [exact AO|exact A|exact B|exact O|exact Ep|]. intros s _ _ In x y z.
  rewrite In, (region_mv rx_90 rx90 inv_rx_90 eq_refl), map_rx90, (region_mv ry90 ry_90 inv_ry90 eq_refl), map_ry_90.
  unfold stop_tree. change (region (TNode DIFFERENCE ?a ?b) ?q) with (region a q /\ ~ region b q). rewrite !leaf_mid.
  pose proof (aperture_solid op (1 / 10) p (0, 0) (- y) (- z) x O ltac:(lra) Ep) as S. cbn [fst snd] in S. rewrite !Rminus_0_r in S. rewrite S, in_aperture_neg.
  change (in_aperture (Pair a b) (0, 0) y z) with (Rabs (y - 0) <= a / 2 /\ Rabs (z - 0) <= b / 2).
  unfold solid, pt; cbn [vx vy vz]. rewrite !Rabs_Ropp, !Rminus_0_r. split.
  - intros [(Y & Z & ->) N]. split; [reflexivity|]. split; [auto|]. intro K. apply N. split; [exact K|lra].
  - intros (-> & (Y & Z) & N). split; [auto|]. tauto.
Qed.

(** ** What the components span *)
Lemma lens_spans : forall asort r1 r2 t ap m, argsort_ok asort -> ap_ok ap -> 0 <= t ->
  radius_ok r1 (reach ap) -> radius_ok r2 (reach ap) -> front_reaches r1 r2 t (reach ap) -> back_reaches r1 r2 t (reach ap) ->
  (forall q, 0 <= q <= reach ap * reach ap -> lens_front r1 t q < lens_back r2 t q) ->
  built asort (thick_lens r1 r2 t ap m) (spans ap (0, 0)).
Proof.
  intros asort r1 r2 t ap m AO A T R1 R2 FR BR E. eapply built_weaken; [|apply thick_lens_solid; eauto].
  intros s F y z. split.
  - intros (x & I). destruct (F x y z) as [_ K]. apply K; auto.
  - intro I. specialize (E _ (aperture_reach ap y z A I)).
    exists ((lens_front r1 t (y * y + z * z) + lens_back r2 t (y * y + z * z)) / 2). apply (F _ y z). split; [exact I|]. lra.
Qed.
Lemma plane_spans : forall asort t ap off m, argsort_ok asort -> ap_ok ap -> 0 <= t -> built asort (plane_mirror t ap off m) (spans ap off).
Proof.
  intros. eapply built_weaken; [|apply plane_mirror_solid; eauto]. intros s F y z. split.
  - intros (x & I). apply F in I. apply I.
  - intro I. exists 0. apply F. split; [exact I|lra].
Qed.
Lemma spherical_spans : forall asort r t ap off m, argsort_ok asort -> ap_ok ap -> 0 < t -> r <> 0 ->
  sqrt (fst off * fst off + snd off * snd off) + reach ap <= Rabs r ->
  built asort (spherical_mirror (Fin r) t ap off m) (spans ap off).
Proof.
  intros asort r t ap off m AO A T N F. eapply built_weaken; [|apply spherical_solid; eauto; lra]. intros s S y z. split.
  - intros (x & I). apply S in I. apply I.
  - intro I. exists (if rltb 0 r then - t else t). apply S. split; [exact I|].
    assert (K : sqrt (r * r - (y * y + z * z)) <= Rabs r).
    { rewrite <- (sqrt_Rsqr_abs r). unfold Rsqr. apply sqrt_le_1_alt. nra. }
    unfold sag. destruct (rltb 0 r) eqn:E.
    + apply rltb_true in E. rewrite Rabs_right in K by lra. lra.
    + apply rltb_false in E. rewrite Rabs_left1 in K by lra. lra.
Qed.
Lemma parabolic_spans : forall asort f t ap off m, argsort_ok asort -> ap_ok ap -> 0 < t -> 0 < f ->
  built asort (parabolic_mirror f t ap off m) (spans ap off).
Proof.
  intros asort f t ap off m AO A T F. eapply built_weaken; [|apply parabolic_solid; eauto; lra]. intros s S y z. split.
  - intros (x & I). apply S in I. apply I.
  - intro I. exists (- (f + t)). apply S. split; [exact I|].
    assert (0 <= (y * y + z * z) / (4 * f)) by (apply Rmult_le_pos; [nra|]; apply Rlt_le, Rinv_0_lt_compat; lra). lra.
Qed.
(** a baffle [a] along y and [b] along z is built [b] along y and [a] along z *)
Lemma baffle_turned : forall asort a b, argsort_ok asort -> 0 <= a -> 0 <= b ->
  built asort (baffle (Pair a b)) (spans (Pair b a) (0, 0)).
Proof.
  intros. eapply built_weaken; [|apply baffle_solid; eauto]. intros s F y z. simpl. rewrite !Rminus_0_r. split.
  - intros (x & I). apply F in I. tauto.
  - intro I. exists 0. apply F. tauto.
Qed.
Lemma baffle_wrong_way : forall asort, argsort_ok asort ->
  built asort (baffle (Pair 1 2)) (fun s => ~ inside s (pt 0 0 (3 / 4)) /\ in_aperture (Pair 1 2) (0, 0) 0 (3 / 4) /\
     inside s (pt 0 (3 / 4) 0) /\ ~ in_aperture (Pair 1 2) (0, 0) (3 / 4) 0).
Proof.
  intros asort AO. eapply built_weaken; [|apply (baffle_solid asort 1 2); [exact AO|lra|lra]]. intros s F. rewrite (F 0 0 (3 / 4)), (F 0 (3 / 4) 0). simpl. rewrite !Rminus_0_r.
  rewrite Rabs_R0, (Rabs_right (3 / 4)) by lra. repeat split; lra.
Qed.

(** ** Lenses that are not what was asked for *)
Lemma deep_lens : forall asort m, argsort_ok asort ->
  built asort (thick_lens (Fin 1) PInf 3 (Round 1) m) (fun s =>
    in_aperture (Round 1) (0, 0) 0 0 /\ lens_front (Fin 1) 3 (0 * 0 + 0 * 0) < 14 / 10 < lens_back PInf 3 (0 * 0 + 0 * 0) /\
    ~ inside s (pt (14 / 10) 0 0)).
Proof.
  intros asort m AO. eapply built_weaken; [|apply (thick_lens_region asort (Fin 1) PInf 3 (Round 1) m); auto; simpl; try lra].
  - intros s F. rewrite (F (14 / 10) 0 0). clear F. split; [simpl; lra|]. split.
    + unfold lens_front, lens_back, sag. replace (rltb 0 1) with true by (symmetry; apply rltb_true; lra).
      replace (1 * 1 - (0 * 0 + 0 * 0)) with (1 * 1) by ring. rewrite sqrt_square by lra. lra.
    + intros (_ & _ & K & _). revert K. unfold front_part. replace (rltb 0 1) with true by (symmetry; apply rltb_true; lra). unfold in_ball. lra.
  - split; [lra|]. rewrite Rabs_right; lra.
Qed.
Lemma biconvex_needle : forall asort m, argsort_ok asort ->
  built asort (biconvex_lens (Fin 2) (Fin 1) 1 (Round 1) m) (occupies (fun x y z => x = 1 / 2 /\ y = 0 /\ z = 0)).
Proof.
  intros asort m AO. eapply built_weaken; [|apply (biconvex_region asort 2 1 1 (Round 1) m); auto; simpl; lra].
  intros s F x y z. rewrite (F x y z). clear F. unfold in_ball. simpl. split.
  - intros (_ & X & B2 & B1). assert (x = 1 / 2) by nra. subst x. assert (y * y + z * z <= 0) by nra. split; [reflexivity|]. split; nra.
  - intros (-> & -> & ->). lra.
Qed.
Lemma biconvex_negative : forall asort r1 r2 t ap m, argsort_ok asort -> ap_ok ap -> 0 < t -> r1 < 0 -> r2 = r1 ->
  built asort (biconvex_lens (Fin r1) (Fin r2) t ap m) (occupies (fun _ _ _ => False)).
Proof.
  intros asort r1 r2 t ap m AO A T R1 ->. eapply built_weaken; [|apply (biconvex_region asort r1 r1 t ap m); auto; lra].
  intros s F x y z. rewrite (F x y z). clear F. unfold in_ball. split; [|tauto]. intros (_ & X & B2 & B1). nra.
Qed.

(** ** Apertures that cannot be built *)
Lemma not_both_positive : forall a b t, ~ (0 < a /\ 0 < b) -> create_aperture (Pair a b) t = None.
Proof.
  intros a b t N. simpl. destruct (rltb 0 a) eqn:E; [|reflexivity]. destruct (rltb 0 b) eqn:E'; [|reflexivity].
  apply rltb_true in E, E'. tauto.
Qed.
Lemma only_positive_pairs : forall a b, ~ (0 < a /\ 0 < b) -> forall r1 r2 t off m f,
  thick_lens r1 r2 t (Pair a b) m = TypeError /\ biconvex_lens r1 r2 t (Pair a b) m = TypeError /\
  plano_convex_lens r1 t (Pair a b) m = TypeError /\ plane_mirror t (Pair a b) off m = TypeError /\
  spherical_mirror r1 t (Pair a b) off m = TypeError /\ (f <> 0 -> parabolic_mirror f t (Pair a b) off m = TypeError) /\
  forall size, aperture size (Pair a b) = TypeError.
Proof.
  intros a b N r1 r2 t off m f. pose proof (not_both_positive a b) as K.
  unfold thick_lens, biconvex_lens, plano_convex_lens, plane_mirror, spherical_mirror, parabolic_mirror, aperture.
  repeat match goal with |- _ /\ _ => split end.
  - destruct (lens_full_thickness r1 r2 t (Pair a b)) as [[x y]|]; rewrite K by exact N; reflexivity.
  - rewrite K by exact N. reflexivity.
  - rewrite K by exact N. reflexivity.
  - rewrite K by exact N. reflexivity.
  - rewrite K by exact N. reflexivity.
  - intro F. cbv zeta. destruct (Req_EM_T f 0); [contradiction|]. rewrite K by exact N. reflexivity.
  - intro size. rewrite K by exact N. destruct (baffle size); reflexivity.
Qed.
