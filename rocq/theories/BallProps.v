(** * BallProps: rays through balls of glass *)
From Coq Require Import Reals Lra Lia List Bool ZArith Psatz.
Import ListNotations.
From Verif Require Import XR XRFacts Arr Lin LinFacts Ops OpsFacts SpecOptics Prim Csg Surf SpecGeom SpecTree SpecNormal CsgProps SurfFacts TreeFacts World SpecWorld Tracer SpecTrace
  PrimFacts2 TraceFacts3 TraceFacts5 TraceFacts6 TraceFacts7 TraceProps Components SpecComponents SpecMotion MotionFacts PrismLaw PrismFacts PrismProps SpecBall BallFacts.
Open Scope R_scope.

Lemma rows_at : forall (before : list row) w w' after, nth_error (before ++ w :: w' :: after) (length before) = Some w /\
  nth_error (before ++ w :: w' :: after) (S (length before)) = Some w'.
Proof. intros. split; [rewrite nth_error_app2, Nat.sub_diag by lia; reflexivity|]. rewrite nth_error_app2 by lia. replace (S (length before) - length before)%nat with 1%nat by lia. reflexivity. Qed.

Theorem ball_turns_twice : forall asort, argsort_ok asort -> forall gen h t comps fuel t', proper gen h t comps -> trace asort h gen fuel t = TOk t' ->
  forall f c r idx n i before w0 w1 w2 after, rows_with_id i (f_rows (get_results t')) = before ++ w0 :: w1 :: w2 :: after ->
  In f (flat_map surface_ids comps) -> ball f c r -> s_mat f = Refractor idx -> row_surf w0 = s_id f -> row_surf w1 = s_id f ->
  idx (row_wl w0) = Fin n -> 1 <= n -> row_idx w0 = 1 -> vdot (row_tilt w0) (vsub (here (row_end w0)) c) < 0 ->
  let p := - vdot (row_tilt w0) (vsub (here (row_end w0)) c) / r in
  row_idx w1 = n /\ row_idx w2 = 1 /\ row_tilt w2 = turned_over (row_tilt w1) (row_tilt w0) /\
  vdot (row_tilt w2) (vsub (here (row_end w1)) c) = - vdot (row_tilt w0) (vsub (here (row_end w0)) c) /\
  vdot (row_tilt w0) (row_tilt w1) = (1 - p * p) / n + p * sqrt (1 - (1 - p * p) / (n * n)).
Proof.
  intros asort AS gen h t comps fuel t' PR TR f c r idx n i before w0 w1 w2 after R IN BL MA SU0 SU1 IX N1 I0 IN0. cbv zeta.
  pose proof PR as ((_ & _ & ND) & _).
  destruct (proper_bounces asort AS _ _ _ _ _ _ PR TR i _ eq_refl) as (_ & BO & _). destruct (proper_legs asort AS _ _ _ _ _ _ PR TR) as (LG & FO).
  destruct (rows_at before w0 w1 (w2 :: after)) as (J0 & J1). rewrite <- R in J0, J1.
  assert (J2 : nth_error (rows_with_id i (f_rows (get_results t'))) (S (S (length before))) = Some w2).
  { rewrite R, nth_error_app2 by lia. replace (S (S (length before)) - length before)%nat with 2%nat by lia. reflexivity. }
  assert (K : forall j w, nth_error (rows_with_id i (f_rows (get_results t'))) j = Some w -> In w (f_rows (get_results t')) /\ row_id w = i) by (intros j w J; apply nth_error_In in J; apply in_rows_with_id in J; exact J).
  destruct (K _ _ J0) as (K0 & ID0). destruct (K _ _ J1) as (K1 & ID1). destruct (K _ _ J2) as (K2 & _).
  destruct (fields_carried _ _ _ _ _ _ TR w0 K0) as (c0 & C0 & W0 & _). destruct (fields_carried _ _ _ _ _ _ TR w1 K1) as (c1 & C1 & W1 & _).
  rewrite ID0 in C0. rewrite ID1, C0 in C1. injection C1 as <-. assert (WL : row_wl w1 = row_wl w0) by congruence.
  destruct (ball_row asort AS _ _ _ _ _ _ PR TR f c r w0 IN BL K0 SU0) as (WC & UA & ZA & NA & EA). set (a := vscale (/ r) (vsub (here (row_end w0)) c)) in *.
  destruct (ball_row asort AS _ _ _ _ _ _ PR TR f c r w1 IN BL K1 SU1) as (_ & UB & ZB & NB & EB). set (b := vscale (/ r) (vsub (here (row_end w1)) c)) in *.
  pose proof BL as (RP & _).
  assert (DA : forall v, vdot v a = vdot v (vsub (here (row_end w0)) c) / r) by (intro v; unfold a; rewrite vdot_scale_r; field; lra).
  assert (DB : forall v, vdot v b = vdot v (vsub (here (row_end w1)) c) / r) by (intro v; unfold b; rewrite vdot_scale_r; field; lra).
  destruct (LG w0 K0) as (U0 & D0 & _). destruct (LG w1 K1) as (U1 & D1 & l & LP & E1 & _). destruct (LG w2 K2) as (U2 & D2 & _).
  destruct (FO i _ _ _ J0 J1) as (ST & _).
  assert (A0 : vdot (row_tilt w0) a < 0). { rewrite DA. unfold Rdiv. pose proof (Rinv_0_lt_compat r RP). nra. }
  assert (OFF : 0 < ray_offset_value) by (unfold ray_offset_value; lra).
  assert (CH : vscale r b = vadd (vscale r a) (vscale (ray_offset_value + l) (row_tilt w1))).
  { assert (X : here (row_end w1) = vadd (here (row_end w0)) (vscale (ray_offset_value + l) (row_tilt w1))).
    { rewrite E1, ST. revert D1. destruct (row_end w0) as [s1 s2 s3 s4], (row_tilt w1) as [d1 d2 d3 d4]. unfold here, vset_w, vadd, vscale; cbn [vx vy vz vw]. intros ->. f_equal; ring. }
    revert X. rewrite EA, EB. clear - RP. destruct c as [c1 c2 c3 c4], a as [a1 a2 a3 a4], b as [b1 b2 b3 b4], (row_tilt w1) as [d1 d2 d3 d4]. unfold vadd, vscale; cbn [vx vy vz vw].
    intro E. injection E as F1 F2 F3 F4. f_equal; lra. }
  destruct (bounce_at _ f w0 w1 a idx ND IN SU0 NA MA (BO _ _ _ J0 J1)) as (_ & n2 & X2 & RF & _). rewrite IX in X2. injection X2 as <-.
  cbv zeta in RF. unfold next_index, world_index in RF. destruct (Rlt_dec 0 (vdot (row_tilt w0) a)) as [Y|_]; [lra|]. rewrite I0 in RF.
  pose proof (sine_sq _ _ U0 UA) as S0. set (s0 := vnorm (tangential (row_tilt w0) a)) in *. assert (SP : 0 <= s0) by apply sqrt_pos.
  destruct RF as (X1 & SN & A1); [nra|].
  destruct (bounce_at _ f w1 w2 b idx ND IN SU1 NB MA (BO _ _ _ J1 J2)) as (_ & n3 & X3 & RF & _).
  cbv zeta in RF. unfold next_index, world_index in RF. rewrite X1 in RF.
  destruct (chord_law n r (ray_offset_value + l) (row_tilt w0) (row_tilt w1) (row_tilt w2) a b) as (B1 & LT & B2 & T2 & SQ); auto; try lra.
  { intros B1 LT. destruct (Rlt_dec 0 (vdot (row_tilt w1) b)) as [_|Y]; [|contradiction]. destruct (RF LT) as (_ & Q1 & Q2). auto. }
  destruct (Rlt_dec 0 (vdot (row_tilt w1) b)) as [_|Y]; [|lra]. destruct (RF LT) as (X4 & _).
  split; [exact X1|]. split; [exact X4|]. split; [exact T2|]. split.
  - rewrite DA, DB in B2. apply (Rmult_eq_reg_r (/ r)); [|pose proof (Rinv_0_lt_compat r RP); lra]. unfold Rdiv in B2. rewrite B2. ring.
  - replace (- vdot (row_tilt w0) (vsub (here (row_end w0)) c) / r) with (- vdot (row_tilt w0) a) by (rewrite DA; unfold Rdiv; ring).
    set (p := vdot (row_tilt w0) a) in *. set (q := vdot (row_tilt w1) a) in *.
    assert (SR : sqrt (1 - (1 - - p * - p) / (n * n)) = - q).
    { apply sqrt_lem_1; try lra.
      - replace (1 - - p * - p) with (1 - p * p) by ring. rewrite <- SQ. replace (1 - n * n * (1 - q * q) / (n * n)) with (q * q) by (field; lra). nra.
      - replace (1 - - p * - p) with (1 - p * p) by ring. rewrite <- SQ. field. lra. }
    rewrite SR. replace (1 - - p * - p) with (n * n * (1 - q * q)) by lra.
    pose proof (snell_solve _ _ _ _ _ SN) as S1. fold p q in S1.
    assert (Z : vdot (vscale n (row_tilt w1)) (row_tilt w1) = vdot (vadd (vscale 1 (row_tilt w0)) (vscale (n * q - 1 * p) a)) (row_tilt w1)) by (rewrite S1; reflexivity).
    rewrite vdot_add_l, !vdot_scale_l, (vdot_comm a (row_tilt w1)) in Z. fold q in Z. unfold unit in U1. rewrite U1 in Z.
    replace (n * n * (1 - q * q) / n) with (n * (1 - q * q)) by (field; lra). lra.
Qed.

(** ** aplanatic points *)
Theorem ball_aplanatic : forall asort, argsort_ok asort -> forall gen h t comps fuel t', proper gen h t comps -> trace asort h gen fuel t = TOk t' ->
  forall f c r idx n i before w1 w2 after p k, rows_with_id i (f_rows (get_results t')) = before ++ w1 :: w2 :: after ->
  In f (flat_map surface_ids comps) -> ball f c r -> s_mat f = Refractor idx -> row_surf w1 = s_id f ->
  row_idx w1 = n -> 1 < n -> vw p = 0 -> n * n * vdot p p = r * r -> 0 < k ->
  here (row_end w1) = vadd (vadd c p) (vscale k (row_tilt w1)) -> n * n * vdot (vsub (here (row_end w1)) c) p < r * r ->
  row_idx w2 = 1 /\ here (row_end w1) = vadd (vadd c (vscale (n * n) p)) (vscale (n * k) (row_tilt w2)).
Proof.
  intros asort AS gen h t comps fuel t' PR TR f c r idx n i before w1 w2 after p k R IN BL MA SU IX N1 WP PP KP EP SIDE.
  pose proof PR as ((_ & _ & ND) & _).
  destruct (proper_bounces asort AS _ _ _ _ _ _ PR TR i _ eq_refl) as (_ & BO & _). destruct (proper_legs asort AS _ _ _ _ _ _ PR TR) as (LG & _).
  destruct (rows_at before w1 w2 after) as (J0 & J1). rewrite <- R in J0, J1.
  assert (K : forall j w, nth_error (rows_with_id i (f_rows (get_results t'))) j = Some w -> In w (f_rows (get_results t'))) by (intros j w J; apply nth_error_In in J; apply in_rows_with_id in J; apply J).
  pose proof (K _ _ J0) as K0. pose proof (K _ _ J1) as K1.
  destruct (ball_row asort AS _ _ _ _ _ _ PR TR f c r w1 IN BL K0 SU) as (WC & UB & ZB & NB & EB). set (b := vscale (/ r) (vsub (here (row_end w1)) c)) in *.
  pose proof BL as (RP & _). destruct (LG w1 K0) as (U1 & D1 & _). destruct (LG w2 K1) as (U2 & D2 & _). unfold unit in UB, U1, U2.
  assert (SIDE' : n * n * (r * vdot b p) < r * r).
  { replace (r * vdot b p) with (vdot (vsub (here (row_end w1)) c) p); [exact SIDE|]. unfold b. rewrite vdot_scale_l. field. lra. }
  assert (CH : vscale r b = vadd p (vscale k (row_tilt w1))).
  { rewrite EB in EP. revert EP. clear. destruct c as [c1 c2 c3 c4], b as [b1 b2 b3 b4], p as [p1 p2 p3 p4], (row_tilt w1) as [d1 d2 d3 d4]. unfold vadd, vscale; cbn [vx vy vz vw].
    intro E. injection E as F1 F2 F3 F4. f_equal; lra. }
  set (q := vdot b p) in *. set (u := vdot (row_tilt w1) b) in *.
  assert (E1 : r = q + k * u).
  { assert (X : vdot (vscale r b) b = vdot (vadd p (vscale k (row_tilt w1))) b) by (rewrite CH; reflexivity).
    rewrite vdot_add_l, !vdot_scale_l, UB, (vdot_comm p b) in X. fold q u in X. lra. }
  assert (E2 : k * k = r * r - 2 * r * q + vdot p p).
  { assert (X : vscale k (row_tilt w1) = vsub (vscale r b) p).
    { rewrite CH. destruct p as [p1 p2 p3 p4], (row_tilt w1) as [d1 d2 d3 d4]. unfold vsub, vopp, vadd, vscale; cbn [vx vy vz vw]. f_equal; ring. }
    assert (Y : vdot (vscale k (row_tilt w1)) (vscale k (row_tilt w1)) = vdot (vsub (vscale r b) p) (vsub (vscale r b) p)) by (rewrite X; reflexivity).
    rewrite !vdot_scale_l, !vdot_scale_r, U1 in Y. rewrite vdot_sub_l, (vdot_comm (vscale r b) (vsub _ _)), (vdot_comm p (vsub _ _)), !vdot_sub_l in Y. rewrite !vdot_scale_l, !vdot_scale_r, UB, (vdot_comm p b) in Y. fold q in Y. lra. }
  assert (QB : q * q <= vdot p p).
  { pose proof (vdot_self_nonneg (vsub p (vscale q b))) as X. rewrite vdot_sub_l, (vdot_comm p (vsub _ _)), (vdot_comm (vscale q b) (vsub _ _)), !vdot_sub_l in X.
    rewrite !vdot_scale_l, !vdot_scale_r, UB, (vdot_comm p b) in X. fold q in X. lra. }
  assert (QR : q < r).
  { assert (NN : 1 < n * n) by nra. set (pp := vdot p p) in *. assert (PS : 0 < pp) by nra. assert (pp < r * r) by nra. nra. }
  assert (UP : 0 < u) by nra.
  set (v := (r * r - n * n * (r * q)) / (n * k * r)).
  assert (VP : 0 < v) by (unfold v; apply Rdiv_lt_0_compat; [lra|]; apply Rmult_lt_0_compat; [apply Rmult_lt_0_compat; lra|lra]).
  assert (V2 : v * v = 1 - n * n * (1 - u * u)).
  { assert (UE : u = (r - q) / k) by (rewrite E1; field; lra).
    assert (KN : n * n * (k * k) = n * n * (r * r) - 2 * (n * n) * (r * q) + r * r) by (rewrite E2; lra).
    apply (Rmult_eq_reg_r (n * n * (k * k) * (r * r))); [|apply Rgt_not_eq; repeat apply Rmult_lt_0_compat; lra].
    transitivity ((r * r - n * n * (r * q)) * (r * r - n * n * (r * q))); [unfold v; field; lra|].
    transitivity ((1 - n * n) * (n * n * (k * k)) * (r * r) + n * n * (n * n) * ((r - q) * (r - q)) * (r * r)).
    - rewrite KN. ring.
    - rewrite UE. field. lra. }
  destruct (bounce_at _ f w1 w2 b idx ND IN SU NB MA (BO _ _ _ J0 J1)) as (_ & n3 & X3 & RF & _).
  cbv zeta in RF. unfold next_index, world_index in RF. fold u in RF. rewrite IX in RF. destruct (Rlt_dec 0 u) as [_|Y]; [|contradiction].
  pose proof (sine_sq _ _ U1 UB) as SB. fold u in SB. set (sb := vnorm (tangential (row_tilt w1) b)) in *. assert (SP : 0 <= sb) by apply sqrt_pos.
  destruct RF as (X4 & SO & B2); [nra|]. split; [exact X4|].
  assert (EV : vdot (row_tilt w2) b = v).
  { apply square_pos_eq; [exact B2|exact VP|]. rewrite V2.
    assert (X : vdot (vscale n (tangential (row_tilt w1) b)) (vscale n (tangential (row_tilt w1) b)) = vdot (vscale 1 (tangential (row_tilt w2) b)) (vscale 1 (tangential (row_tilt w2) b))) by (rewrite SO; reflexivity).
    rewrite !vdot_scale_l, !vdot_scale_r in X. pose proof (sine_sq _ _ U1 UB) as Y0. pose proof (sine_sq _ _ U2 UB) as Y1. unfold vnorm in Y0, Y1.
    rewrite sqrt_sqrt in Y0, Y1 by apply vdot_self_nonneg. rewrite Y0, Y1 in X. fold u in X. lra. }
  pose proof (snell_solve _ _ _ _ _ SO) as S2. rewrite EV in S2. fold u in S2.
  assert (CO : n * k * (1 * v - n * u) = r - n * n * r).
  { transitivity ((r * r - n * n * (r * q)) / r - n * n * (k * u)); [unfold v; field; lra|]. replace (k * u) with (r - q) by lra. field. lra. }
  rewrite EB. assert (T2 : vscale (n * k) (row_tilt w2) = vadd (vscale (n * n * k) (row_tilt w1)) (vscale (r - n * n * r) b)).
  { rewrite <- CO. transitivity (vscale (n * k) (vscale 1 (row_tilt w2))); [destruct (row_tilt w2); unfold vscale; cbn; f_equal; ring|]. rewrite S2.
    generalize (1 * v - n * u). intro g. destruct (row_tilt w1) as [d1 d2 d3 d4], b as [b1 b2 b3 b4]. unfold vadd, vscale; cbn [vx vy vz vw]. f_equal; ring. }
  rewrite T2. revert CH. clear. destruct c as [c1 c2 c3 c4], b as [b1 b2 b3 b4], p as [p1 p2 p3 p4], (row_tilt w1) as [d1 d2 d3 d4]. unfold vadd, vscale; cbn [vx vy vz vw].
  intro E. injection E as F1 F2 F3 F4. assert (H : forall c b p d, r * b = p + k * d -> c + r * b = c + n * n * p + (n * n * k * d + (r - n * n * r) * b)).
  { intros c b p d H. replace p with (r * b - k * d) by lra. ring. } f_equal; apply H; assumption.
Qed.
