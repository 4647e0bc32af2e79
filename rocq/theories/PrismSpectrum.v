(** * PrismSpectrum: the colours behind a prism stand in order *)
From Coq Require Import Reals Lra Lia List Bool ZArith Psatz.
Import ListNotations.
From Verif Require Import XR XRFacts Arr Lin LinFacts Ops OpsFacts SpecOptics Prim Csg Surf SpecGeom SpecTree CsgProps World SpecWorld Tracer SpecTrace
  TraceFacts5 TraceFacts7 TraceProps Components SpecComponents BuildFacts ComponentFacts ComponentFacts2 ComponentFacts3 SpecMotion MotionFacts Utils SpecUtils UtilProps UtilProps2 SpecPrism PrismLaw PrismFacts PrismProps.
Open Scope R_scope.

Definition lpt (side l y : R) : v4 := pt (l / 2 - side / 2) y (sqrt 3 / 2 * l - sqrt 3 / 4 * side).
Definition rpt (side l y : R) : v4 := pt (side / 2 - l / 2) y (sqrt 3 / 2 * l - sqrt 3 / 4 * side).

Lemma here_step : forall a b t d, vw d = 0 -> b = vadd a (vscale t d) -> vsub (here b) (here a) = vscale t d.
Proof.
  intros [x y z w] b t [dx dy dz dw] D ->. cbn [vw] in D. subst dw. unfold here, vset_w, vsub, vadd, vopp, vscale; cbn [vx vy vz vw]. f_equal; ring.
Qed.
Lemma two_steps : forall a t u d, vadd (vadd a (vscale t d)) (vscale u d) = vadd a (vscale (t + u) d).
Proof. intros [x y z w] t u [dx dy dz dw]. unfold vadd, vscale; cbn [vx vy vz vw]. f_equal; ring. Qed.

Ltac vs := unfold vsub, vadd, vopp, vscale; cbn [vx vy vz vw].
Ltac vsh H := unfold vsub, vadd, vopp, vscale in H; cbn [vx vy vz vw] in H.
(** where a ray that passes the prism goes *)
Lemma path_of : forall asort, argsort_ok asort -> forall s0 side width m w1 w2 w3, traced_through asort s0 side width m w1 w2 w3 ->
  exists l1 y1 l2 y2 t1 t2 t3, l1 < side /\ l2 < side /\ 0 < t2 /\ 0 < t3 /\
  here (row_end w1) = mapply m (lpt side l1 y1) /\ here (row_end w2) = mapply m (rpt side l2 y2) /\
  vsub (here (row_end w1)) (here (row_start w1)) = vscale t1 (row_tilt w1) /\
  vsub (here (row_end w2)) (here (row_end w1)) = vscale t2 (row_tilt w2) /\
  vsub (here (row_end w3)) (here (row_end w2)) = vscale t3 (row_tilt w3) /\
  (forall w, w = w1 \/ w = w2 \/ w = w3 -> unit (row_tilt w) /\ vw (row_tilt w) = 0) /\
  vdot (row_tilt w1) (mapply m out_left) < 0.
Proof.
  intros asort AS s0 side width m w1 w2 w3 (gen & h & t & comps & fuel & t' & s & i & j & rows & PR & T & IS & MS & -> & J1 & J2 & J3 & TH).
  destruct TH as (g1 & g2 & g3 & SI & (RS1 & q1 & (l1 & y1 & B1 & _ & ->) & H1) & IN1 & I1 & (RS2 & q2 & (l2 & y2 & B2 & _ & ->) & H2)).
  destruct (proper_legs asort AS _ _ _ _ _ _ PR T) as (LG & FO).
  assert (RW : forall k w, nth_error (rows_with_id i (f_rows (get_results t'))) k = Some w -> In w (f_rows (get_results t'))).
  { intros k w K. apply nth_error_In in K. apply in_rows_with_id in K. tauto. }
  destruct (LG _ (RW _ _ J1)) as (U1 & D1 & t1 & T1 & E1 & _). destruct (LG _ (RW _ _ J2)) as (U2 & D2 & t2 & T2 & E2 & _). destruct (LG _ (RW _ _ J3)) as (U3 & D3 & t3 & T3 & E3 & _).
  destruct (FO _ _ _ _ J1 J2) as (F2 & _). destruct (FO _ _ _ _ J2 J3) as (F3 & _).
  rewrite F2, two_steps in E2. rewrite F3, two_steps in E3.
  assert (OFF : 0 < ray_offset_value) by (unfold ray_offset_value; lra).
  exists l1, y1, l2, y2, t1, (ray_offset_value + t2), (ray_offset_value + t3). unfold off_the_base in *.
  repeat (split; [lra|]). split; [exact H1|]. split; [exact H2|].
  repeat (split; [apply here_step; assumption|]). split; [|exact IN1]. intros w [-> | [-> | ->]]; auto.
Qed.

(** one starting point, one direction: one point of the face *)
Lemma same_entry : forall m side l1 y1 l1' y1' t t' p d, isometry m -> vw d = 0 -> vdot d (mapply m out_left) < 0 ->
  vsub (mapply m (lpt side l1 y1)) p = vscale t d -> vsub (mapply m (lpt side l1' y1')) p = vscale t' d ->
  mapply m (lpt side l1 y1) = mapply m (lpt side l1' y1').
Proof.
  intros m side l1 y1 l1' y1' t t' p d ISO D N E E'.
  assert (EE : mapply m (vsub (lpt side l1 y1) (lpt side l1' y1')) = vscale (t - t') d).
  { rewrite mapply_sub. transitivity (vsub (vsub (mapply m (lpt side l1 y1)) p) (vsub (mapply m (lpt side l1' y1')) p)).
    - destruct (mapply m (lpt side l1 y1)), (mapply m (lpt side l1' y1')), p. vs. f_equal; ring.
    - rewrite E, E'. destruct d. vs. f_equal; ring. }
  assert (Z : (t - t') * vdot d (mapply m out_left) = 0).
  { rewrite <- vdot_scale_l, <- EE, (iso_dot m ISO) by (unfold vsub, vadd, vopp, vscale, lpt, pt; cbn [vw]; ring || reflexivity).
    unfold vsub, vadd, vopp, vscale, vdot, lpt, pt, out_left; cbn [vx vy vz vw]. field. }
  assert (t - t' = 0) by nra. rewrite H in EE. rewrite mapply_sub in EE.
  destruct (mapply m (lpt side l1 y1)), (mapply m (lpt side l1' y1')), d. vsh EE.
  injection EE as X Y Z' W. f_equal; lra.
Qed.

(** how far from the upper edge the second face is met *)
Lemma inside_path : forall m side l1 y1 l2 y2 t d, isometry m -> vw d = 0 ->
  vsub (mapply m (rpt side l2 y2)) (mapply m (lpt side l1 y1)) = vscale t d ->
  t * vdot d (mapply m up_left) = (side - l1) - (side - l2) / 2 /\ t * vdot d (mapply m out_left) = - (sqrt 3 / 2 * (side - l2)) /\
  t * vdot d (mapply m edgewise) = y2 - y1.
Proof.
  intros m side l1 y1 l2 y2 t d ISO D E. rewrite <- mapply_sub in E.
  assert (W : vw (vsub (rpt side l2 y2) (lpt side l1 y1)) = 0) by (unfold vsub, vadd, vopp, vscale, rpt, lpt, pt; cbn [vw]; ring).
  rewrite <- !vdot_scale_l, <- E, !(iso_dot m ISO) by (exact W || reflexivity). destruct sqrt3 as [K _].
  unfold vsub, vadd, vopp, vscale, vdot, rpt, lpt, pt, up_left, out_left, edgewise; cbn [vx vy vz vw]. split; [|split; field].
  transitivity (1 / 2 * (side - l1 / 2 - l2 / 2) + sqrt 3 * sqrt 3 / 4 * (l2 - l1)); [field|rewrite K; field].
Qed.

(** the larger index comes out further from the edge *)
Lemma further_down : forall n n' a t t' c c' L M M', 0 < n' -> n' < n -> 0 < a -> 0 < t -> 0 < t' -> 0 < M -> 0 < M' -> 0 < L -> 0 < c -> 0 < c' ->
  n * n * (c * c) = n * n - a * a -> n' * n' * (c' * c') = n' * n' - a * a ->
  t * (a / n) = L - M / 2 -> t' * (a / n') = L - M' / 2 -> t * c = sqrt 3 / 2 * M -> t' * c' = sqrt 3 / 2 * M' -> M' < M.
Proof.
  intros n n' a t t' c c' L M M' N' NN A T T' MP MP' LP C C' F F' E1 E1' E2 E2'.
  set (x := n * c) in *. set (x' := n' * c') in *. set (u := t / n). set (u' := t' / n').
  assert (X : 0 < x) by (apply Rmult_lt_0_compat; lra). assert (X' : 0 < x') by (apply Rmult_lt_0_compat; lra).
  assert (U : 0 < u) by (apply Rdiv_lt_0_compat; lra). assert (U' : 0 < u') by (apply Rdiv_lt_0_compat; lra).
  assert (EA : u * a = L - M / 2) by (rewrite <- E1; unfold u; field; lra). assert (EA' : u' * a = L - M' / 2) by (rewrite <- E1'; unfold u'; field; lra).
  assert (EX : u * x = sqrt 3 / 2 * M) by (rewrite <- E2; unfold u, x; field; lra). assert (EX' : u' * x' = sqrt 3 / 2 * M') by (rewrite <- E2'; unfold u', x'; field; lra).
  assert (XX : x' < x).
  { assert (x' * x' < x * x); [|nra]. replace (x * x) with (n * n - a * a) by (rewrite <- F; unfold x; ring). replace (x' * x') with (n' * n' - a * a) by (rewrite <- F'; unfold x'; ring). nra. }
  clearbody x x' u u'. destruct sqrt3 as [_ K].
  destruct (Rlt_dec M' M) as [|NL]; auto. exfalso. assert (LE : M <= M') by lra.
  assert (u' <= u) by nra. assert (u * x <= u' * x') by nra. assert (u' * x' < u' * x) by nra. nra.
Qed.
(** a ray that leaves a prism of high index comes from below *)
Lemma comes_from_below : forall n a, 4 / 3 <= n * n -> a * a <= 1 -> descent n a 0 * descent n a 0 < 1 -> 0 < a.
Proof.
  intros n a N A B. destruct (Rlt_dec 0 a) as [|NA]; auto. exfalso. unfold descent in B. destruct sqrt3 as [K2 K].
  set (c := sqrt (n * n - a * a - 0 * 0)) in *. assert (C : c * c = n * n - a * a) by (unfold c; rewrite sqrt_sqrt; nra).
  assert (C0 : 0 <= c) by apply sqrt_pos.
  assert (E : (sqrt 3 / 2 * c - a / 2) * (sqrt 3 / 2 * c - a / 2) = 3 / 4 * (c * c) + a * a / 4 - sqrt 3 / 2 * (c * a)).
  { transitivity (sqrt 3 * sqrt 3 / 4 * (c * c) + a * a / 4 - sqrt 3 / 2 * (c * a)); [field|rewrite K2; field]. }
  rewrite E in B. assert (KC : 1 <= sqrt 3 * c). { assert (1 <= sqrt 3 * c * (sqrt 3 * c)); [|nra]. replace (sqrt 3 * c * (sqrt 3 * c)) with (sqrt 3 * sqrt 3 * (c * c)) by ring. rewrite K2. nra. }
  assert (P : a * a / 2 <= - (sqrt 3 / 2 * (c * a))). { assert (- a <= - (sqrt 3 * c * a)) by nra. assert (a * a <= - a) by nra. lra. }
  nra.
Qed.

Lemma glass_high : forall g w n, visible w -> glass g w = Fin n -> 4 / 3 <= n * n.
Proof.
  intros g w n V E. assert (S : forall s, catalogue s -> sellmeier_index s w = Fin n -> 4 / 3 <= n * n).
  { intros s C H. destruct (catalogue_index s w C V) as [F P]. rewrite F in H. injection H as <-. rewrite sqrt_sqrt; lra. }
  destruct g; simpl in E; [injection E as <-; lra|exact (S _ bk7_ok E)|exact (S _ sf5_ok E)|exact (S _ sf2_ok E)].
Qed.

Lemma base_side : forall m f, isometry m -> vdot (mapply m (slanted f)) (mapply m (slanted (f - PI / 2))) = 0.
Proof. intros m f ISO. rewrite (iso_dot m ISO) by reflexivity. unfold vdot, slanted; cbn [vx vy vz vw]. rewrite cos_minus, sin_minus, cos_PI2, sin_PI2. ring. Qed.
Lemma base_side2 : forall m f g, isometry m -> vdot (mapply m (slanted g)) (mapply m (slanted (f - PI / 2))) = sin (f - g).
Proof. intros m f g ISO. rewrite (iso_dot m ISO) by reflexivity. unfold vdot, slanted; cbn [vx vy vz vw]. rewrite cos_minus, !sin_minus, cos_PI2, sin_PI2. ring. Qed.
Lemma base_side3 : forall m f, isometry m -> vdot (mapply m down_right) (mapply m (slanted (f - PI / 2))) = vdot (mapply m (slanted f)) (mapply m out_right).
Proof. intros m f ISO. rewrite !(iso_dot m ISO) by reflexivity. unfold vdot, slanted, down_right, out_right; cbn [vx vy vz vw]. rewrite cos_minus, sin_minus, cos_PI2, sin_PI2. field. Qed.

Theorem prism_spectrum : forall asort, argsort_ok asort -> forall side width g, 1 / 1000000 <= side -> 1 / 1000000 <= width -> g <> Ideal ->
  built asort (equilateral_prism side width (glass_material g)) (fun s0 =>
    forall m w1 w2 w3 v1 v2 v3, isometry m -> traced_through asort s0 side width m w1 w2 w3 -> traced_through asort s0 side width m v1 v2 v3 ->
    row_start w1 = row_start v1 -> row_tilt w1 = row_tilt v1 -> skew m w1 = 0 ->
    SpecUtils.visible (row_wl w1) -> SpecUtils.visible (row_wl v1) -> row_wl w1 < row_wl v1 -> row_idx w3 = 1 -> row_idx v3 = 1 ->
    0 < vdot (vsub (row_end w2) (row_end v2)) (mapply m down_right) /\
    exists f, row_tilt v3 = mapply m (slanted f) /\
      vdot (vsub (row_end w3) (row_end v3)) (mapply m edgewise) = 0 /\
      0 < vdot (vsub (row_end w3) (row_end v3)) (mapply m (slanted (f - PI / 2)))).
Proof.
  intros asort AS side width g SS WW G. unfold glass_material.
  generalize (prism_rows asort AS side width (Utils.glass g) SS WW).
  apply built_weaken. intros s0 PR m w1 w2 w3 v1 v2 v3 ISO TW TV ST SAME Y0 VW VV LT IW IV.
  destruct (catalogue_visible g _ VW) as (n & EN & N1). destruct (catalogue_visible g _ VV) as (n' & EN' & N1').
  pose proof (normal_dispersion g _ _ _ _ G VW VV LT EN EN') as NN. pose proof (glass_high _ _ _ VV EN') as HI.
  assert (RI : rise m v1 = rise m w1) by (unfold rise; rewrite SAME; reflexivity).
  assert (SK : skew m v1 = 0) by (unfold skew in *; rewrite <- SAME; exact Y0).
  destruct (path_of _ AS _ _ _ _ _ _ _ TW) as (l1 & y1 & l2 & y2 & t1 & t2 & t3 & L1 & L2 & T2 & T3 & H1 & H2 & S1 & S2 & S3 & DU & NG).
  destruct (path_of _ AS _ _ _ _ _ _ _ TV) as (k1 & z1 & k2 & z2 & u1 & u2 & u3 & K1 & K2 & U2 & U3 & H1' & H2' & S1' & S2' & S3' & DU' & NG').
  destruct (DU w1) as (UW1 & DW1); auto. destruct (DU w2) as (UW2 & DW2); auto. destruct (DU w3) as (UW3 & DW3); auto. clear DU.
  destruct (DU' v1) as (UV1 & DV1); auto. destruct (DU' v2) as (UV2 & DV2); auto. destruct (DU' v3) as (UV3 & DV3); auto. clear DU'.
  assert (A1 : rise m w1 * rise m w1 <= 1).
  { pose proof (frame_left m ISO _ DW1) as F. unfold unit in UW1. rewrite UW1 in F. fold (rise m w1) in F. nra. }
  pose proof (PR m w1 w2 w3 ISO TW n EN) as R. pose proof (PR m v1 v2 v3 ISO TV n' EN') as R'. cbv zeta in R, R'. rewrite RI, SK in R'. rewrite Y0 in R.
  set (a := rise m w1) in *.
  destruct R as (_ & RA & RY & RC & _ & RT & RM); [nra|]. destruct R' as (_ & RA' & RY' & RC' & _ & RT' & RM'); [nra|].
  assert (B : descent n a 0 * descent n a 0 + 0 * 0 < 1).
  { destruct (Rlt_dec (descent n a 0 * descent n a 0 + 0 * 0) 1); auto. destruct RM as (H & _); lra. }
  assert (B' : descent n' a 0 * descent n' a 0 + 0 * 0 < 1).
  { destruct (Rlt_dec (descent n' a 0 * descent n' a 0 + 0 * 0) 1); auto. destruct RM' as (H & _); lra. }
  destruct (RT B) as (_ & BW & KW & OUTW). destruct (RT' B') as (_ & BV & KV & OUT). clear RT RT' RM RM' PR.
  pose proof (slanted_right m _ ISO DV3 UV3 KV OUT) as TL. pose proof (slanted_right m _ ISO DW3 UW3 KW OUTW) as TS. rewrite BV in TL. rewrite BW in TS.
  set (b := descent n a 0) in *. set (b' := descent n' a 0) in *.
  assert (GROW : b' < b) by (apply descent_grows; nra).
  assert (AP : 0 < a) by (apply (comes_from_below n'); [exact HI|exact A1|fold b'; lra]).
  (* the same entry *)
  rewrite H1, ST, SAME in S1. rewrite H1' in S1'. rewrite SAME in NG.
  pose proof (same_entry m side l1 y1 k1 z1 t1 u1 _ _ ISO DV1 NG S1 S1') as EQ.
  rewrite H2, H1, EQ in S2. rewrite H2', H1' in S2'.
  destruct (inside_path _ _ _ _ _ _ _ _ ISO DW2 S2) as (P1 & P2 & P3). destruct (inside_path _ _ _ _ _ _ _ _ ISO DV2 S2') as (Q1 & Q2 & Q3).
  fold (rise m w2) in P1. fold (rise m v2) in Q1. fold (skew m w2) in P3. fold (skew m v2) in Q3.
  assert (ZW : skew m w2 = 0) by nra. assert (ZV : skew m v2 = 0) by nra. rewrite ZW in P3. rewrite ZV in Q3.
  assert (YY : y2 = z2) by lra.
  assert (DOWN : k2 > l2).
  { pose proof (frame_left m ISO _ DW2) as F. unfold unit in UW2. rewrite UW2 in F. fold (rise m w2) in F. fold (skew m w2) in F. rewrite ZW in F.
    pose proof (frame_left m ISO _ DV2) as F'. unfold unit in UV2. rewrite UV2 in F'. fold (rise m v2) in F'. fold (skew m v2) in F'. rewrite ZV in F'.
    set (c := vdot (row_tilt w2) (mapply m out_left)) in *. set (c' := vdot (row_tilt v2) (mapply m out_left)) in *.
    assert (RE : rise m w2 = a / n) by (rewrite <- RA; field; lra). assert (RE' : rise m v2 = a / n') by (rewrite <- RA'; field; lra).
    rewrite RE in P1. rewrite RE' in Q1.
    assert (FN : n * n * (- c * - c) = n * n - a * a). { replace a with (n * rise m w2) by lra. transitivity (n * n * (c * c)); [ring|]. replace (c * c) with (1 - rise m w2 * rise m w2) by lra. ring. }
    assert (FN' : n' * n' * (- c' * - c') = n' * n' - a * a). { replace a with (n' * rise m v2) by lra. transitivity (n' * n' * (c' * c')); [ring|]. replace (c' * c') with (1 - rise m v2 * rise m v2) by lra. ring. }
    assert (side - k2 < side - l2); [|lra].
    apply (further_down n n' a t2 u2 (- c) (- c') (side - k1) (side - l2) (side - k2)); auto; lra. }
  (* the points of the second face *)
  assert (GAP : vsub (here (row_end w2)) (here (row_end v2)) = vscale (k2 - l2) (mapply m down_right)).
  { rewrite H2, H2', <- mapply_sub, <- mapply_scale. f_equal. rewrite YY. unfold vsub, vadd, vopp, vscale, rpt, pt, down_right; cbn [vx vy vz vw]. f_equal; field. }
  assert (WH : forall p q d, vw d = 0 -> vdot (vsub p q) d = vdot (vsub (here p) (here q)) d).
  { intros [px py pz pw] [qx qy qz qw] [dx dy dz dw] D. cbn [vw] in D. subst dw. unfold here, vset_w, vsub, vadd, vopp, vscale, vdot; cbn [vx vy vz vw]. ring. }
  assert (IW0 : forall v, vw v = 0 -> vw (mapply m v) = 0) by (intros v V; rewrite (iso_w m ISO); exact V).
  split.
  { rewrite WH by (apply IW0; reflexivity). rewrite GAP, vdot_scale_l, (iso_dot m ISO) by reflexivity. destruct sqrt3 as [Q _].
    unfold vdot, down_right; cbn [vx vy vz vw]. match goal with |- 0 < _ * ?e => replace e with 1 end; [lra|].
    transitivity (1 / 4 + sqrt 3 * sqrt 3 / 4); [rewrite Q|]; field. }
  exists (PI / 6 - asin b'). split; [exact TL|].
  assert (TOT : vsub (here (row_end w3)) (here (row_end v3)) = vsub (vadd (vscale (k2 - l2) (mapply m down_right)) (vscale t3 (row_tilt w3))) (vscale u3 (row_tilt v3))).
  { rewrite <- GAP, <- S3, <- S3'. destruct (here (row_end w3)), (here (row_end v3)), (here (row_end w2)), (here (row_end v2)). vs. f_equal; ring. }
  assert (LIN : forall x y z d, vdot (vsub (vadd x y) z) d = vdot x d + vdot y d - vdot z d).
  { intros x y z d. unfold vdot. destruct x, y, z, d. vs. ring. }
  split.
  - rewrite WH by (apply IW0; reflexivity). rewrite TOT, LIN, !vdot_scale_l. fold (skew m w3) (skew m v3). rewrite KW, KV, (iso_dot m ISO) by reflexivity.
    unfold vdot, down_right, edgewise; cbn [vx vy vz vw]. ring.
  - rewrite WH by (apply IW0; reflexivity). rewrite TOT, LIN, !vdot_scale_l. rewrite TL in OUT. rewrite TL, TS, (base_side m _ ISO), (base_side2 m _ _ ISO), (base_side3 m _ ISO).
    assert (SP : 0 < sin (PI / 6 - asin b' - (PI / 6 - asin b))).
    { assert (RB : -1 < b < 1) by (split; nra). assert (RB' : -1 < b' < 1) by (split; nra).
      pose proof (asin_bound_lt _ RB). pose proof (asin_bound_lt _ RB'). pose proof (asin_grows b' b ltac:(lra) GROW ltac:(lra)). apply sin_gt_0; lra. }
    assert (0 < (k2 - l2) * vdot (mapply m (slanted (PI / 6 - asin b'))) (mapply m out_right)) by (apply Rmult_lt_0_compat; lra).
    assert (0 < t3 * sin (PI / 6 - asin b' - (PI / 6 - asin b))) by (apply Rmult_lt_0_compat; lra). lra.
Qed.

Lemma slanted_normal : forall m f g, isometry m -> mapply m (slanted f) = mapply m (slanted g) -> mapply m (slanted (f - PI / 2)) = mapply m (slanted (g - PI / 2)).
Proof.
  intros m f g (_ & (i & I) & _) E. f_equal. assert (X : slanted f = slanted g). { rewrite <- (inverse_apply_l m i (slanted f) I), E. apply inverse_apply_l. exact I. }
  unfold slanted in *. injection X as C S. rewrite !cos_minus, !sin_minus, C, S. reflexivity.
Qed.
Theorem prism_screen : forall asort, argsort_ok asort -> forall side width g, 1 / 1000000 <= side -> 1 / 1000000 <= width -> g <> Ideal ->
  built asort (equilateral_prism side width (glass_material g)) (fun s0 =>
    forall m w1 w2 w3 v1 v2 v3, isometry m -> traced_through asort s0 side width m w1 w2 w3 -> traced_through asort s0 side width m v1 v2 v3 ->
    row_start w1 = row_start v1 -> row_tilt w1 = row_tilt v1 -> skew m w1 = 0 ->
    SpecUtils.visible (row_wl w1) -> SpecUtils.visible (row_wl v1) -> row_wl w1 < row_wl v1 -> row_idx w3 = 1 -> row_idx v3 = 1 ->
    forall f down k, row_tilt v3 = mapply m (slanted f) -> 0 < vdot down (mapply m (slanted (f - PI / 2))) ->
    row_end w3 = vadd (row_end v3) (vscale k down) -> 0 < k).
Proof.
  intros asort AS side width g SS WW G. generalize (prism_spectrum asort AS side width g SS WW G). apply built_weaken.
  intros s0 H m w1 w2 w3 v1 v2 v3 ISO TW TV ST SAME Y0 VW VV LT IW IV f down k TF DN EN.
  destruct (H m w1 w2 w3 v1 v2 v3 ISO TW TV ST SAME Y0 VW VV LT IW IV) as (_ & f' & TF' & _ & P).
  rewrite TF in TF'. rewrite <- (slanted_normal m f f' ISO TF'), EN in P. set (q := mapply m (slanted (f - PI / 2))) in *. clearbody q.
  assert (E : vdot (vsub (vadd (row_end v3) (vscale k down)) (row_end v3)) q = k * vdot down q) by (unfold vdot; destruct (row_end v3), down, q; vs; ring).
  rewrite E in P. nra.
Qed.
