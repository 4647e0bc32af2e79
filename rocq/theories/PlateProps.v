(** * PlateProps: rays straight through a plate of glass *)
From Coq Require Import Reals Lra Lia List Bool ZArith Psatz.
Import ListNotations.
From Verif Require Import XR XRFacts Arr Lin LinFacts Ops OpsFacts SpecOptics Prim Csg Surf SpecGeom SpecTree SpecNormal CsgProps SurfFacts TreeFacts World SpecWorld Tracer SpecTrace
  PrimFacts2 TraceFacts3 TraceFacts5 TraceFacts6 TraceFacts7 TraceProps MirrorTrace SpecImages ImageFacts ImageFacts2 ImageFacts3 Components SpecComponents BuildFacts
  ComponentFacts ComponentFacts2 ComponentFacts3 SpecEdges SpecMotion MotionFacts MirrorFacts2 PrismLaw PrismFacts PrismProps SpecRod RodFacts RodProps SpecBlock BlockProps.
Open Scope R_scope.

Section Plate.
  Variables (surfaces : list surf) (f : surf) (low high : axis -> R).
  Hypothesis (ND : NoDup (map s_id surfaces)) (IN : In f surfaces) (IV : is_inverse (s_world f) (s_obj f)) (BL : block f low high).

  Lemma obj_affine : affine (s_obj f).
  Proof using IV BL. destruct BL as (_ & _ & ISO & _). eapply affine_inverse; eauto. apply ISO. Qed.
  Lemma part_coord : forall a w, vw (row_tilt w) = 0 -> part f a w = coord a (mapply (s_obj f) (row_tilt w)).
  Proof using IV BL.
    intros a w W. pose proof obj_affine as AO. destruct BL as (_ & _ & (AF & _ & IS) & _).
    assert (WQ : vw (mapply (s_obj f) (row_tilt w)) = 0) by (rewrite affine_w; auto). pose proof (inverse_apply_r _ _ (row_tilt w) IV) as QE.
    unfold part. rewrite <- QE at 1. rewrite IS by (auto; apply arrow_w). apply coord_arrow. exact WQ.
  Qed.
  Lemma same_parts : forall w w', vw (row_tilt w) = 0 -> vw (row_tilt w') = 0 -> (forall a, part f a w = part f a w') -> row_tilt w = row_tilt w'.
  Proof using IV BL.
    intros w w' W W' H. pose proof obj_affine as AO. rewrite <- (inverse_apply_r _ _ (row_tilt w) IV), <- (inverse_apply_r _ _ (row_tilt w') IV). f_equal.
    pose proof (H AlongX) as X. pose proof (H AlongY) as Y. pose proof (H AlongZ) as Z. rewrite !part_coord in X, Y, Z by auto. apply v4_eq; auto. rewrite !affine_w by auto. congruence.
  Qed.
  Lemma place_step : forall b w v l, vw (row_tilt v) = 0 -> row_end v = vadd (row_end w) (vscale l (row_tilt v)) -> place f b v - place f b w = l * part f b v.
  Proof using IV BL.
    intros b w v l W E. rewrite part_coord by auto. unfold place.
    assert (H : here (row_end v) = vadd (here (row_end w)) (vscale l (row_tilt v))).
    { rewrite E. revert W. destruct (row_end w) as [a1 a2 a3 a4], (row_tilt v) as [b1 b2 b3 b4]. cbn [vw]. intros ->. unfold here, vset_w, vadd, vscale; cbn. f_equal; ring. }
    rewrite H, mapply_add, mapply_scale. destruct b; unfold vadd, vscale; cbn [coord vx vy vz]; ring.
  Qed.
  Lemma face_side : forall a w w' idx n s, ends_on_pair f low high a w -> s_mat f = Refractor idx -> idx (row_wl w) = Fin n -> SpecTrace.bounce surfaces w w' -> unit (row_tilt w) ->
    0 <= s -> s * s = 1 - part f a w * part f a w -> row_idx w * s < (if Rlt_dec 0 (sense f high a w * part f a w) then 1 else n) ->
    if Rlt_dec 0 (sense f high a w * part f a w) then 0 < sense f high a w * part f a w' else sense f high a w * part f a w' < 0.
  Proof using ND IN IV BL.
    intros a w w' idx n s ES MA IX BO U S0 SS LT. pose proof (face_normal f low high IV BL a w ES) as WN. set (N := vscale (sense f high a w) (mapply (s_world f) (arrow a))) in *.
    destruct (bounce_at _ f w w' N idx ND IN (proj1 ES) WN MA BO) as (UN & n2 & X2 & RF & _). rewrite IX in X2. injection X2 as <-.
    assert (DN : forall x, vdot (row_tilt x) N = sense f high a w * part f a x) by (intro x; unfold N; rewrite vdot_scale_r; reflexivity).
    cbv zeta in RF. unfold next_index, world_index in RF. rewrite !DN in RF.
    assert (SE : vnorm (tangential (row_tilt w) N) = s).
    { pose proof (sine_sq _ _ U UN) as Q. rewrite DN in Q. pose proof (sense_one f high a w) as O. set (q := sense f high a w) in *. set (p := part f a w) in *.
      replace (q * p * (q * p)) with (q * q * (p * p)) in Q by ring. rewrite O in Q. pose proof (vnorm_nonneg (tangential (row_tilt w) N)) as V0. set (x := vnorm (tangential (row_tilt w) N)) in *. clearbody x p q. nra. }
    rewrite SE in RF. apply RF. exact LT.
  Qed.
End Plate.

Theorem plates_pass : forall asort, argsort_ok asort -> forall gen h t comps fuel t', proper gen h t comps -> trace asort h gen fuel t = TOk t' ->
  forall f low high idx n a i before w0 v u after, rows_with_id i (f_rows (get_results t')) = before ++ [w0; v; u] ++ after ->
  In f (flat_map surface_ids comps) -> block f low high -> s_mat f = Refractor idx -> idx (row_wl w0) = Fin n -> 1 <= n ->
  enters f low high a w0 -> row_idx w0 = 1 -> leaves f low high a v ->
  row_idx v = n /\ row_idx u = 1 /\ row_tilt u = row_tilt w0 /\
  forall b, b <> a -> place f b v - place f b w0 = (high a - low a) * part f b w0 / sqrt (n * n - 1 + part f a w0 * part f a w0).
Proof.
  intros asort AS gen h t comps fuel t' PR TR f low high idx n a i before w0 v u after R IN BL MA IX N1 EN I0 LV.
  pose proof PR as ((_ & _ & ND) & _ & _ & _ & PO). destruct (PO f IN) as (_ & _ & IV & _).
  destruct (proper_bounces asort AS _ _ _ _ _ _ PR TR i _ eq_refl) as (_ & BO & _). destruct (proper_legs asort AS _ _ _ _ _ _ PR TR) as (LG & FO).
  assert (SEQ : forall j w, nth_error [w0; v; u] j = Some w -> nth_error (rows_with_id i (f_rows (get_results t'))) (length before + j) = Some w) by (intros j w E; rewrite R; apply rows_seg; exact E).
  assert (K : forall j w, nth_error [w0; v; u] j = Some w -> In w (f_rows (get_results t')) /\ row_id w = i) by (intros j w E; apply SEQ, nth_error_In, in_rows_with_id in E; exact E).
  pose proof (K 0%nat w0 eq_refl) as (W0 & D0). pose proof (K 1%nat v eq_refl) as (W1 & D1). pose proof (K 2%nat u eq_refl) as (W2 & D2).
  destruct (LG w0 W0) as (U0 & T0 & _). destruct (LG v W1) as (U1 & T1 & l & LP & EE & _). destruct (LG u W2) as (U2 & T2 & _).
  assert (WL : row_wl v = row_wl w0).
  { destruct (fields_carried _ _ _ _ _ _ TR v W1) as (c1 & C1 & X1 & _). destruct (fields_carried _ _ _ _ _ _ TR w0 W0) as (c2 & C2 & X2 & _). rewrite D1 in C1. rewrite D0, C1 in C2. injection C2 as <-. congruence. }
  assert (J0 := SEQ 0%nat w0 eq_refl). assert (J1 := SEQ 1%nat v eq_refl). assert (J2 := SEQ 2%nat u eq_refl).
  replace (length before + 1)%nat with (S (length before + 0)) in J1 by lia. replace (length before + 2)%nat with (S (S (length before + 0))) in J2 by lia.
  pose proof (BO _ _ _ J0 J1) as B1. pose proof (BO _ _ _ J1 J2) as B2. destruct (FO _ _ _ _ J0 J1) as (ST & _).
  pose proof (parts_sum f low high IV BL w0 U0 T0) as P0. pose proof (parts_sum f low high IV BL v U1 T1) as P1. pose proof (parts_sum f low high IV BL u U2 T2) as P2.
  pose proof (sense_in f low high BL a w0 EN) as SI. pose proof (sense_one f high a w0) as O0. pose proof (sense_one f high a v) as O1. pose proof LV as LV'. apply (sense_out f low high BL a v) in LV'. destruct LV' as (EV & SO).
  assert (A0 : 0 < part f a w0 * part f a w0) by (assert (part f a w0 <> 0) by (intro Z; rewrite Z in SI; lra); nra).
  (* in *)
  destruct (face_step _ f low high ND IN IV BL a w0 v idx n (proj1 EN) MA IX B1 U0 T0) as (s & SP & SS & RF & _).
  pose proof (face_side _ f low high ND IN IV BL a w0 v idx n s (proj1 EN) MA IX B1 U0 SP SS) as SD. cbv zeta in RF.
  destruct (Rlt_dec 0 (sense f high a w0 * part f a w0)) as [Y|_]; [lra|]. rewrite I0 in RF, SD. assert (LT : 1 * s < n) by nra. destruct (RF LT) as (IV1 & QV). specialize (SD LT). clear RF LT.
  (* out *)
  destruct (face_step _ f low high ND IN IV BL a v u idx n EV MA ltac:(congruence) B2 U1 T1) as (s' & SP' & SS' & RF & _).
  pose proof (face_side _ f low high ND IN IV BL a v u idx n s' EV MA ltac:(congruence) B2 U1 SP' SS') as SD'. cbv zeta in RF.
  destruct (Rlt_dec 0 (sense f high a v * part f a v)) as [_|Y]; [|contradiction]. rewrite IV1 in RF, SD'.
  assert (PA : n * n * (1 - part f a v * part f a v) = 1 - part f a w0 * part f a w0).
  { assert (Q : forall b, b <> a -> n * n * (part f b v * part f b v) = part f b w0 * part f b w0) by (intros b NE; pose proof (QV b NE) as X; rewrite Rmult_1_l in X; rewrite X; ring).
    destruct a; [pose proof (Q AlongY ltac:(discriminate)); pose proof (Q AlongZ ltac:(discriminate))|pose proof (Q AlongX ltac:(discriminate)); pose proof (Q AlongZ ltac:(discriminate))|pose proof (Q AlongX ltac:(discriminate)); pose proof (Q AlongY ltac:(discriminate))]; nra. }
  assert (LT : n * s' < 1) by (assert (n * s' * (n * s') < 1) by (replace (n * s' * (n * s')) with (n * n * (s' * s')) by ring; rewrite SS'; lra); assert (0 <= n * s') by nra; nra).
  destruct (RF LT) as (IU & QU). specialize (SD' LT). clear RF LT.
  split; [exact IV1|]. split; [exact IU|].
  assert (PB : forall b, b <> a -> part f b u = part f b w0) by (intros b NE; pose proof (QV b NE); pose proof (QU b NE); lra).
  (* the other face *)
  set (p0 := part f a w0) in *. set (p1 := part f a v) in *. set (p2 := part f a u) in *. set (s0 := sense f high a w0) in *. set (s1 := sense f high a v) in *.
  assert (OPP : 0 < p0 * p1 /\ 0 < p1 * p2 /\ (s1 = 1 /\ s0 = -1 \/ s1 = -1 /\ s0 = 1)).
  { assert (X0 : s0 = 1 \/ s0 = -1) by (unfold s0, sense; destruct (Req_EM_T _ _); auto). assert (X1 : s1 = 1 \/ s1 = -1) by (unfold s1, sense; destruct (Req_EM_T _ _); auto).
    destruct X0 as [E0|E0], X1 as [E1|E1]; rewrite E0 in *; rewrite E1 in *; repeat split; try nra; auto; exfalso; lra. }
  destruct OPP as (S01 & S12 & OPP).
  assert (PU : p2 * p2 = p0 * p0) by (destruct a; [rewrite (PB AlongY), (PB AlongZ) in P2 by discriminate|rewrite (PB AlongX), (PB AlongZ) in P2 by discriminate|rewrite (PB AlongX), (PB AlongY) in P2 by discriminate]; unfold p0, p2; lra).
  assert (PE : p2 = p0). { assert (0 < p0 * p2) by (assert (0 < p0 * p2 * (p1 * p1)) by (replace (p0 * p2 * (p1 * p1)) with (p0 * p1 * (p1 * p2)) by ring; apply Rmult_lt_0_compat; lra); assert (0 < p1 * p1) by (assert (p1 <> 0) by (intro Z; rewrite Z in S01; lra); nra); nra). assert ((p2 - p0) * (p2 + p0) = 0) by lra. nra. }
  split.
  { apply (same_parts f low high IV BL); auto. intro b. destruct (axis_dec b a) as [->|NE]; [exact PE|auto]. }
  set (k := ray_offset_value + l). assert (EK : row_end v = vadd (row_end w0) (vscale k (row_tilt v))).
  { rewrite EE, ST. unfold k. destruct (row_end w0) as [a1 a2 a3 a4], (row_tilt v) as [b1 b2 b3 b4]. unfold vadd, vscale; cbn. f_equal; ring. }
  pose proof (place_step f low high IV BL a w0 v k T1 EK) as PA'. fold p1 in PA'.
  assert (ACROSS : (high a - low a) * Rabs p1 = k * (p1 * p1)).
  { destruct EN as ((_ & ON0 & _) & _). destruct EV as (_ & ON1 & _). unfold s0, sense in OPP. unfold s1, sense in OPP.
    destruct (Req_EM_T (place f a v) (high a)) as [E1|E1], (Req_EM_T (place f a w0) (high a)) as [E0|E0]; try (exfalso; lra).
    - destruct ON0 as [ON0|ON0]; [|contradiction]. rewrite E1, ON0 in PA'. rewrite PA'. assert (X : s1 = 1) by (unfold s1, sense; destruct (Req_EM_T _ _); [reflexivity|contradiction]). rewrite X in SO. rewrite Rabs_right by lra. ring.
    - destruct ON1 as [ON1|ON1]; [|contradiction]. rewrite E0, ON1 in PA'. replace (high a - low a) with (- (k * p1)) by lra. assert (X : s1 = -1) by (unfold s1, sense; destruct (Req_EM_T _ _); [contradiction|reflexivity]). rewrite X in SO. rewrite Rabs_left by lra. ring. }
  assert (Z1 : p1 <> 0) by (intro Z; rewrite Z in S01; lra). pose proof (Rabs_pos_lt p1 Z1) as AP.
  assert (SQ : sqrt (n * n - 1 + p0 * p0) = n * Rabs p1).
  { replace (n * n - 1 + p0 * p0) with (n * n * (p1 * p1)) by lra. rewrite sqrt_mult by nra. rewrite sqrt_square by lra. f_equal. rewrite <- (sqrt_Rsqr_abs p1). reflexivity. }
  assert (AA : Rabs p1 * Rabs p1 = p1 * p1) by (rewrite <- Rabs_mult; apply Rabs_right; nra).
  assert (KE : k = (high a - low a) / Rabs p1).
  { apply Rmult_eq_reg_r with (p1 * p1); [|nra]. rewrite <- ACROSS, <- AA. field. lra. }
  intros b NE. rewrite (place_step f low high IV BL b w0 v k T1 EK), SQ, KE. pose proof (QV b NE) as X. rewrite Rmult_1_l in X. rewrite X. field. lra.
Qed.
