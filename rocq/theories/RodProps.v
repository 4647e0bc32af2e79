(** * RodProps: rods and tubes guide light *)
From Coq Require Import Reals Lra Lia List Bool ZArith Psatz.
Import ListNotations.
From Verif Require Import XR XRFacts Arr Lin LinFacts Ops OpsFacts SpecOptics Prim Csg Surf SpecGeom SpecTree SpecNormal CsgProps SurfFacts TreeFacts World SpecWorld Tracer SpecTrace
  PrimFacts2 TraceFacts3 TraceFacts5 TraceFacts6 TraceFacts7 TraceProps MirrorTrace SpecImages ImageFacts ImageFacts2 ImageFacts3 Components SpecComponents BuildFacts
  ComponentFacts ComponentFacts2 ComponentFacts3 SpecEdges SpecMotion MotionFacts MirrorFacts2 PrismLaw PrismFacts PrismProps SpecRod RodFacts.
Open Scope R_scope.

Section Rod.
  Variables (asort : list xr -> list nat) (comps : list shape).
  Notation surfaces := (flat_map surface_ids comps).
  Variables (f : surf) (c e : v4) (r lo hi : R).
  Hypothesis (ND : NoDup (map s_id surfaces)) (IN : In f surfaces) (IV : is_inverse (s_world f) (s_obj f)) (RD : rod f c e r lo hi).

  Lemma side_row : forall w, ends_on_side f c e r lo hi w -> let n := vscale (/ r) (off_axis c e (here (row_end w))) in
    world_normal f (here (row_end w)) = Some n /\ unit n /\ vdot n e = 0 /\ vdot (row_tilt w) n = radial c e w / r.
  Proof using IV RD.
    intros w (SU & ON & NL & NH). cbv zeta. destruct (rod_side_normal f c e r lo hi (here (row_end w)) RD IV eq_refl ON NL NH) as (WN & UN). destruct (rod_axis _ _ _ _ _ _ RD) as (UE & _).
    split; [exact WN|]. split; [exact UN|]. split; [rewrite vdot_scale_l, off_perp by auto; ring|]. rewrite vdot_scale_r. unfold radial. field. destruct RD; lra.
  Qed.
  (** what is held is mirrored *)
  Lemma held_step : forall w w', ends_on_side f c e r lo hi w -> held f c e r w -> unit (row_tilt w) -> SpecTrace.bounce surfaces w w' ->
    row_idx w' = row_idx w /\ axial e w' = axial e w /\ vdot (row_tilt w') (off_axis c e (here (row_end w))) = - radial c e w.
  Proof using ND IN IV RD.
    intros w w' ES HE U B. destruct (side_row w ES) as (WN & UN & PE & DN). set (n := vscale (/ r) (off_axis c e (here (row_end w)))) in *.
    assert (RP : 0 < r) by (destruct RD; auto).
    assert (M : row_idx w' = row_idx w /\ mirrored (row_tilt w) (row_tilt w') n).
    { destruct HE as [MA | ((idx & MA) & RA & SN)].
      - destruct B as (s & n' & IS & ID & WN' & _ & B). assert (s = f) by (apply (same_surface surfaces); auto; destruct ES; congruence). subst s. rewrite MA in B.
        rewrite WN in WN'. injection WN' as <-. exact B.
      - destruct (bounce_at _ f w w' n idx ND IN (proj1 ES) WN MA B) as (_ & n2 & X2 & _ & TI). apply TI. unfold next_index, world_index. rewrite DN.
        assert (DP : 0 < radial c e w / r) by (apply Rdiv_lt_0_compat; auto). destruct (Rlt_dec 0 (radial c e w / r)) as [_|Y]; [|contradiction].
        pose proof (sine_sq _ _ U UN) as S1. rewrite DN in S1. assert (E : vnorm (tangential (row_tilt w) n) = sqrt (1 - radial c e w / r * (radial c e w / r))).
        { rewrite <- S1, sqrt_square; auto. apply sqrt_pos. }
        rewrite E. exact SN. }
    destruct M as (ID & M). split; [exact ID|]. split; [unfold axial; eapply mirrored_axis; eauto|].
    destruct M as (M1 & _). rewrite DN in M1. unfold n in M1. rewrite vdot_scale_r in M1. apply (Rmult_eq_reg_l (/ r)); [|pose proof (Rinv_0_lt_compat r RP); lra].
    rewrite M1. field. lra.
  Qed.
  Lemma held_next : forall w w', ends_on_side f c e r lo hi w -> ends_on_side f c e r lo hi w' -> held f c e r w -> unit (row_tilt w) -> SpecTrace.bounce surfaces w w' -> follows w w' -> leg asort comps w' ->
    held f c e r w' /\ row_idx w' = row_idx w /\ axial e w' = axial e w /\ radial c e w' = radial c e w /\
    (1 - axial e w * axial e w) * (height c e (here (row_end w')) - height c e (here (row_end w))) = 2 * axial e w * radial c e w.
  Proof using ND IN IV RD.
    intros w w' ES ES' HE U B FO LG. destruct (held_step w w' ES HE U B) as (ID & AX & RA). destruct (next_leg _ _ _ _ FO LG) as (L & LP & EN). destruct (rod_axis _ _ _ _ _ _ RD) as (UE & _).
    destruct LG as (U' & _). destruct ES as (_ & O1 & _). destruct ES' as (_ & O2 & _). rewrite EN in O2.
    destruct (side_chord c e r _ _ L UE U' LP O1 O2) as (LE & DO).
    assert (RR : radial c e w' = radial c e w) by (unfold radial at 1; rewrite EN, DO, RA; ring).
    split; [|split; [exact ID|]; split; [exact AX|]; split; [exact RR|]].
    - destruct HE as [MA | (MA & RA' & SN)]; [left; auto|right]. rewrite RR, ID. auto.
    - rewrite EN, height_step. fold (axial e w'). rewrite RA in LE. fold (axial e w') in LE. rewrite AX in *. replace (height c e (here (row_end w)) + L * axial e w - height c e (here (row_end w))) with (L * axial e w) by ring.
      transitivity (axial e w * (L * (1 - axial e w * axial e w))); [ring|]. rewrite LE. ring.
  Qed.
  Lemma held_run : forall ws w0, (forall j w w', nth_error (w0 :: ws) j = Some w -> nth_error (w0 :: ws) (S j) = Some w' -> SpecTrace.bounce surfaces w w' /\ follows w w') ->
    (forall w, In w (w0 :: ws) -> leg asort comps w /\ ends_on_side f c e r lo hi w) -> held f c e r w0 ->
    forall k w, nth_error (w0 :: ws) k = Some w -> held f c e r w /\ row_idx w = row_idx w0 /\ axial e w = axial e w0 /\ radial c e w = radial c e w0 /\
      (1 - axial e w0 * axial e w0) * (height c e (here (row_end w)) - height c e (here (row_end w0))) = INR k * (2 * axial e w0 * radial c e w0).
  Proof using ND IN IV RD.
    intros ws w0 BF LE H0 k. induction k as [|k IH]; intros w J.
    - injection J as <-. repeat (split; [auto|]). cbn [INR]. ring.
    - destruct (nth_error (w0 :: ws) k) as [v|] eqn:E; [|apply nth_error_None in E; assert (X : nth_error (w0 :: ws) (S k) <> None) by congruence; apply nth_error_Some in X; lia].
      destruct (IH v eq_refl) as (HV & I1 & A1 & R1 & Z1). destruct (BF _ _ _ E J) as (B & FO). destruct (LE v) as (LV & EV); [eapply nth_error_In; eauto|].
      destruct (LE w) as (LW & EW); [eapply nth_error_In; eauto|]. destruct (held_next v w EV EW HV (proj1 LV) B FO LW) as (HW & I2 & A2 & R2 & Z2).
      split; [exact HW|]. split; [congruence|]. split; [congruence|]. split; [congruence|]. rewrite S_INR. rewrite A1, R1 in Z2. lra.
  Qed.
End Rod.

Lemma rows_seg : forall (A : Type) (before ws after : list A) j w, nth_error ws j = Some w -> nth_error (before ++ ws ++ after) (length before + j) = Some w.
Proof.
  intros A before ws after j w J. rewrite nth_error_app2 by lia. replace (length before + j - length before)%nat with j by lia. rewrite nth_error_app1; auto. apply nth_error_Some. congruence.
Qed.

(** ** on and on *)
Theorem rods_guide : forall asort, argsort_ok asort -> forall gen h t comps fuel t', proper gen h t comps -> trace asort h gen fuel t = TOk t' ->
  forall f c e r lo hi i before w0 ws after, rows_with_id i (f_rows (get_results t')) = before ++ (w0 :: ws) ++ after ->
  In f (flat_map surface_ids comps) -> rod f c e r lo hi -> Forall (ends_on_side f c e r lo hi) (w0 :: ws) -> held f c e r w0 ->
  (forall k w, nth_error ((w0 :: ws) ++ after) k = Some w -> (k <= S (length ws))%nat -> row_idx w = row_idx w0 /\ axial e w = axial e w0) /\
  (forall k w, nth_error (w0 :: ws) k = Some w -> radial c e w = radial c e w0 /\
     (1 - axial e w0 * axial e w0) * (height c e (here (row_end w)) - height c e (here (row_end w0))) = INR k * (2 * axial e w0 * radial c e w0)).
Proof.
  intros asort AS gen h t comps fuel t' PR TR f c e r lo hi i before w0 ws after R IN RD ES HE.
  pose proof PR as ((_ & _ & ND) & _ & _ & _ & PO). destruct (PO f IN) as (_ & _ & IV & _).
  destruct (proper_bounces asort AS _ _ _ _ _ _ PR TR i _ eq_refl) as (_ & BO & _). destruct (proper_legs asort AS _ _ _ _ _ _ PR TR) as (LG & FO).
  assert (J : forall j w, nth_error ((w0 :: ws) ++ after) j = Some w -> nth_error (rows_with_id i (f_rows (get_results t'))) (length before + j) = Some w).
  { intros j w E. rewrite R. rewrite nth_error_app2 by lia. replace (length before + j - length before)%nat with j by lia. exact E. }
  assert (K : forall j w, nth_error ((w0 :: ws) ++ after) j = Some w -> leg asort comps w).
  { intros j w E. apply J, nth_error_In, in_rows_with_id in E. apply LG. apply E. }
  assert (J' : forall j w, nth_error (w0 :: ws) j = Some w -> nth_error ((w0 :: ws) ++ after) j = Some w).
  { intros j w E. rewrite nth_error_app1; auto. apply nth_error_Some. congruence. }
  assert (N : forall j w w', nth_error ((w0 :: ws) ++ after) j = Some w -> nth_error ((w0 :: ws) ++ after) (S j) = Some w' -> SpecTrace.bounce (flat_map surface_ids comps) w w' /\ follows w w').
  { intros j w w' E E'. apply J in E. apply J in E'. replace (length before + S j)%nat with (S (length before + j)) in E' by lia. split; [apply (BO _ _ _ E E')|apply (FO i _ _ _ E E')]. }
  rewrite Forall_forall in ES.
  assert (RUN : forall k w, nth_error (w0 :: ws) k = Some w -> held f c e r w /\ row_idx w = row_idx w0 /\ axial e w = axial e w0 /\ radial c e w = radial c e w0 /\
      (1 - axial e w0 * axial e w0) * (height c e (here (row_end w)) - height c e (here (row_end w0))) = INR k * (2 * axial e w0 * radial c e w0)).
  { apply (held_run asort comps f c e r lo hi ND IN IV RD); auto.
    - intros j w w' E E'. apply (N j); apply J'; auto.
    - intros w I. split; [|auto]. apply In_nth_error in I. destruct I as (j & E). apply (K j), J', E. }
  split.
  - intros k w E LE. destruct (Nat.eq_dec k (S (length ws))) as [->|NE].
    + destruct (nth_error (w0 :: ws) (length ws)) as [v|] eqn:EV; [|apply nth_error_None in EV; cbn in EV; lia].
      destruct (RUN _ _ EV) as (HV & I1 & A1 & _). destruct (N _ _ _ (J' _ _ EV) E) as (B & _).
      destruct (held_step comps f c e r lo hi ND IN IV RD v w) as (I2 & A2 & _); auto.
      * apply ES. eapply nth_error_In; eauto.
      * apply (K _ _ (J' _ _ EV)).
      * split; congruence.
    + rewrite nth_error_app1 in E by (cbn; lia). destruct (RUN _ _ E) as (_ & I1 & A1 & _). auto.
  - intros k w E. destruct (RUN _ _ E) as (_ & _ & _ & R1 & Z1). auto.
Qed.

(** ** from end to end *)
Lemma radial_bound : forall c e r x d, unit e -> unit d -> vdot (off_axis c e x) (off_axis c e x) = r * r ->
  vdot d (off_axis c e x) * vdot d (off_axis c e x) <= (1 - vdot d e * vdot d e) * (r * r).
Proof.
  intros c e r x d UE UD O. pose proof (off_perp c e x UE) as PX. set (o := off_axis c e x) in *. rewrite <- (flat_dot d e o UE PX), <- (flat_sq d e UD UE), <- O.
  set (g := vsub d (vscale (vdot d e) e)). clearbody g o. clear. destruct g as [a1 a2 a3 a4], o as [b1 b2 b3 b4]. unfold vdot; cbn [vx vy vz vw].
  assert (0 <= (a1 * b2 - a2 * b1) * (a1 * b2 - a2 * b1) + (a1 * b3 - a3 * b1) * (a1 * b3 - a3 * b1) + (a1 * b4 - a4 * b1) * (a1 * b4 - a4 * b1) +
    (a2 * b3 - a3 * b2) * (a2 * b3 - a3 * b2) + (a2 * b4 - a4 * b2) * (a2 * b4 - a4 * b2) + (a3 * b4 - a4 * b3) * (a3 * b4 - a4 * b3)).
  { repeat apply Rplus_le_le_0_compat; apply Rle_0_sqr. }
  lra.
Qed.
Lemma snell_sines : forall k k' d d' n, unit d -> unit d' -> unit n -> vscale k (tangential d n) = vscale k' (tangential d' n) ->
  k * k * (1 - vdot d n * vdot d n) = k' * k' * (1 - vdot d' n * vdot d' n).
Proof.
  intros k k' d d' n U U' UN E.
  assert (X : vdot (vscale k (tangential d n)) (vscale k (tangential d n)) = vdot (vscale k' (tangential d' n)) (vscale k' (tangential d' n))) by (rewrite E; reflexivity).
  rewrite !vdot_scale_l, !vdot_scale_r in X. pose proof (sine_sq d n U UN) as Y0. pose proof (sine_sq d' n U' UN) as Y1. unfold vnorm in Y0, Y1.
  rewrite sqrt_sqrt in Y0, Y1 by apply vdot_self_nonneg. rewrite Y0, Y1 in X. lra.
Qed.

Theorem rods_deliver : forall asort, argsort_ok asort -> forall gen h t comps fuel t', proper gen h t comps -> trace asort h gen fuel t = TOk t' ->
  forall f c e r lo hi idx n i before w0 ws v u after, rows_with_id i (f_rows (get_results t')) = before ++ (w0 :: ws ++ [v; u]) ++ after ->
  In f (flat_map surface_ids comps) -> rod f c e r lo hi -> ~ near lo hi -> s_mat f = Refractor idx -> idx (row_wl w0) = Fin n -> 0 < n -> 2 <= n * n ->
  ends_on_base f c e r lo w0 -> row_idx w0 = 1 -> 0 < axial e w0 -> Forall (ends_on_side f c e r lo hi) ws -> ends_on_top f c e hi v ->
  Forall (fun w => row_idx w = n) (ws ++ [v]) /\ row_idx u = 1 /\ axial e u = axial e w0.
Proof.
  intros asort AS gen h t comps fuel t' PR TR f c e r lo hi idx n i before w0 ws v u after R IN RD NLH MA IX NP N2 BA I0 A0 ES TO.
  pose proof PR as ((_ & _ & ND) & _ & _ & _ & PO). destruct (PO f IN) as (_ & _ & IV & _).
  destruct (proper_bounces asort AS _ _ _ _ _ _ PR TR i _ eq_refl) as (_ & BO & _). destruct (proper_legs asort AS _ _ _ _ _ _ PR TR) as (LG & FO).
  pose proof (rod_axis _ _ _ _ _ _ RD) as (UE & WE & WC). assert (RP : 0 < r) by (destruct RD; auto).
  assert (J : forall j w, nth_error (w0 :: ws ++ [v; u]) j = Some w -> nth_error (rows_with_id i (f_rows (get_results t'))) (length before + j) = Some w) by (intros j w E; rewrite R; apply rows_seg; exact E).
  assert (K : forall j w, nth_error (w0 :: ws ++ [v; u]) j = Some w -> In w (f_rows (get_results t')) /\ row_id w = i).
  { intros j w E. apply J, nth_error_In, in_rows_with_id in E. exact E. }
  assert (N : forall j w w', nth_error (w0 :: ws ++ [v; u]) j = Some w -> nth_error (w0 :: ws ++ [v; u]) (S j) = Some w' -> SpecTrace.bounce (flat_map surface_ids comps) w w' /\ follows w w').
  { intros j w w' E E'. apply J in E. apply J in E'. replace (length before + S j)%nat with (S (length before + j)) in E' by lia. split; [apply (BO _ _ _ E E')|apply (FO i _ _ _ E E')]. }
  assert (WL : forall j w, nth_error (w0 :: ws ++ [v; u]) j = Some w -> row_wl w = row_wl w0).
  { intros j w E. destruct (K _ _ E) as (W & ID). destruct (K 0%nat w0 eq_refl) as (W' & ID'). destruct (fields_carried _ _ _ _ _ _ TR w W) as (c1 & C1 & X1 & _).
    destruct (fields_carried _ _ _ _ _ _ TR w0 W') as (c2 & C2 & X2 & _). rewrite ID in C1. rewrite ID', C1 in C2. injection C2 as <-. congruence. }
  (* in at the base *)
  assert (IN1 : forall w1, nth_error (w0 :: ws ++ [v; u]) 1 = Some w1 -> row_idx w1 = n /\ 0 < axial e w1 /\ n * n * (1 - axial e w1 * axial e w1) = 1 - axial e w0 * axial e w0).
  { intros w1 J1. destruct (N 0%nat w0 w1 eq_refl J1) as (B & _). destruct BA as (SU & _ & HT). destruct (rod_cap_normal f c e r lo hi (here (row_end w0)) RD IV eq_refl NLH) as (WN & _). specialize (WN HT).
    destruct (LG w0 (proj1 (K 0%nat w0 eq_refl))) as (U0 & _). destruct (LG w1 (proj1 (K 1%nat w1 J1))) as (U1 & _).
    destruct (bounce_at _ f w0 w1 _ idx ND IN SU WN MA B) as (UN & n2 & X2 & RF & _). rewrite IX in X2. injection X2 as <-.
    cbv zeta in RF. unfold next_index in RF. rewrite !vdot_scale_r in RF. fold (axial e w0) (axial e w1) in RF. destruct (Rlt_dec 0 (-1 * axial e w0)) as [Y|_]; [lra|]. rewrite I0 in RF.
    pose proof (sine_sq _ _ U0 UN) as S0. rewrite vdot_scale_r in S0. fold (axial e w0) in S0. set (s0 := vnorm (tangential (row_tilt w0) (vscale (-1) e))) in *. assert (SP : 0 <= s0) by apply sqrt_pos.
    destruct RF as (X1 & SN & A1); [nra|]. split; [exact X1|]. split; [lra|]. pose proof (snell_sines _ _ _ _ _ U0 U1 UN SN) as Q. rewrite !vdot_scale_r in Q. fold (axial e w0) (axial e w1) in Q. lra. }
  (* along the side *)
  assert (MID : exists w1, nth_error (w0 :: ws ++ [v; u]) 1 = Some w1 /\ Forall (fun w => row_idx w = n /\ axial e w = axial e w1) (ws ++ [v])).
  { destruct ws as [|w1 ws].
    - exists v. split; [reflexivity|]. constructor; [|constructor]. split; [apply (IN1 v eq_refl)|reflexivity].
    - exists w1. split; [reflexivity|]. destruct (IN1 w1 eq_refl) as (X1 & A1 & Q1).
      destruct (N 0%nat w0 w1 eq_refl eq_refl) as (_ & F1). pose proof (LG w1 (proj1 (K 1%nat w1 eq_refl))) as LG1. destruct (next_leg _ _ _ _ F1 LG1) as (L & LP & EN). pose proof LG1 as (U1 & _).
      pose proof (Forall_inv ES) as (_ & O1 & _). destruct BA as (_ & OB & _).
      assert (RA : 0 < radial c e w1).
      { unfold radial. rewrite EN in *. rewrite off_step in *. pose proof (off_perp c e (here (row_end w0)) UE) as PX. set (o := off_axis c e (here (row_end w0))) in *.
        pose proof (flat_dot (row_tilt w1) e o UE PX) as FD. pose proof (flat_sq (row_tilt w1) e U1 UE) as FS. set (g := vsub (row_tilt w1) (vscale (vdot (row_tilt w1) e) e)) in *.
        assert (GE : vdot (row_tilt w1) g = vdot g g). { rewrite FS. unfold g. rewrite vdot_sub_r, vdot_scale_r. unfold unit in U1. rewrite U1. ring. }
        rewrite vdot_add_l, !vdot_add_r, !vdot_scale_l, !vdot_scale_r, (vdot_comm o g), FD in O1. rewrite vdot_add_r, vdot_scale_r, GE.
        set (G := vdot g g) in *. assert (G0 : 0 <= G) by apply vdot_self_nonneg. set (D := vdot (row_tilt w1) o) in *. assert (0 <= L * L * G) by nra. nra. }
      assert (HE : held f c e r w1).
      { right. split; [eauto|]. split; [exact RA|]. pose proof (radial_bound c e r _ _ UE U1 O1) as RB. fold (radial c e w1) (axial e w1) in RB.
        set (D := radial c e w1) in *. set (a := axial e w1) in *. assert (DR : D / r * (D / r) <= 1 - a * a).
        { apply (Rmult_le_reg_r (r * r)); [nra|]. replace (D / r * (D / r) * (r * r)) with (D * D) by (field; lra). exact RB. }
        rewrite X1. assert (P1 : 1 <= n * n * (1 - D / r * (D / r))). { assert (n * n * (a * a) <= n * n * (1 - D / r * (D / r))) by (apply Rmult_le_compat_l; nra). nra. }
        assert (Y0 : 0 <= 1 - D / r * (D / r)) by nra. pose proof (sqrt_sqrt _ Y0) as SS. pose proof (sqrt_pos (1 - D / r * (D / r))) as SP. set (q := sqrt (1 - D / r * (D / r))) in *. rewrite <- SS in P1.
        assert (0 <= n * q) by nra. nra. }
      destruct (rods_guide asort AS gen h t comps fuel t' PR TR f c e r lo hi i (before ++ [w0]) w1 ws ([v; u] ++ after)) as (G & _); auto.
      { rewrite R. rewrite <- !app_assoc. cbn. rewrite <- !app_assoc. reflexivity. }
      apply Forall_forall. intros w I. change ((w1 :: ws) ++ [v]) with (w1 :: (ws ++ [v])) in I. apply In_nth_error in I. destruct I as (k & E).
      assert (LE : (k <= S (length ws))%nat) by (assert (X : nth_error (w1 :: ws ++ [v]) k <> None) by congruence; apply nth_error_Some in X; cbn in X; rewrite app_length in X; cbn in X; lia).
      destruct (G k w) as (Y1 & Y2); auto.
      + replace ((w1 :: ws) ++ [v; u] ++ after) with ((w1 :: ws ++ [v]) ++ (u :: after)) by (cbn; rewrite <- app_assoc; reflexivity). rewrite nth_error_app1; auto. apply nth_error_Some. congruence.
      + split; congruence. }
  destruct MID as (w1 & J1 & MID). destruct (IN1 w1 J1) as (_ & A1 & Q1). split; [eapply Forall_impl; [|exact MID]; cbn; tauto|].
  (* out at the top *)
  rewrite Forall_forall in MID. destruct (MID v) as (IV' & AV); [apply in_or_app; right; left; reflexivity|].
  assert (JV : nth_error (w0 :: ws ++ [v; u]) (S (length ws)) = Some v) by (cbn; rewrite nth_error_app2 by lia; replace (length ws - length ws)%nat with 0%nat by lia; reflexivity).
  assert (JU : nth_error (w0 :: ws ++ [v; u]) (S (S (length ws))) = Some u) by (change (nth_error (ws ++ [v; u]) (S (length ws)) = Some u); rewrite nth_error_app2 by lia; replace (S (length ws) - length ws)%nat with 1%nat by lia; reflexivity).
  destruct (N _ _ _ JV JU) as (B & _). destruct (LG v (proj1 (K _ _ JV))) as (UV & _). destruct (LG u (proj1 (K _ _ JU))) as (UU & _).
  destruct TO as (SU & HT). destruct (rod_cap_normal f c e r lo hi (here (row_end v)) RD IV eq_refl NLH) as (_ & WN). specialize (WN HT).
  destruct (bounce_at _ f v u _ idx ND IN SU WN MA B) as (UN & n2 & X2 & RF & _). cbv zeta in RF. unfold next_index, world_index in RF. rewrite !vdot_scale_r in RF. fold (axial e v) (axial e u) in RF.
  rewrite AV in RF. destruct (Rlt_dec 0 (1 * axial e w1)) as [_|Y]; [|lra]. rewrite IV' in RF.
  pose proof (sine_sq _ _ UV UN) as S0. rewrite vdot_scale_r in S0. fold (axial e v) in S0. rewrite AV in S0. set (s0 := vnorm (tangential (row_tilt v) (vscale 1 e))) in *. assert (SP : 0 <= s0) by apply sqrt_pos.
  assert (LT : n * s0 < 1). { assert (n * s0 * (n * s0) < 1) by (replace (n * s0 * (n * s0)) with (n * n * (s0 * s0)) by ring; rewrite S0; nra). assert (0 <= n * s0) by nra. nra. }
  destruct (RF LT) as (X1 & SN & AU). split; [exact X1|]. pose proof (snell_sines _ _ _ _ _ UV UU UN SN) as Q. rewrite !vdot_scale_r in Q. fold (axial e v) (axial e u) in Q. rewrite AV in Q.
  assert (E : axial e u * axial e u = axial e w0 * axial e w0) by lra. nra.
Qed.
