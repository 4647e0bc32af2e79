(** * PrismProps: rays through an equilateral prism *)
From Coq Require Import Reals Lra Lia List Bool ZArith Psatz.
Import ListNotations.
From Verif Require Import XR XRFacts Arr Lin LinFacts Ops OpsFacts SpecOptics Prim Csg Surf SpecGeom SpecTree CsgProps World SpecWorld Tracer SpecTrace
  TraceFacts5 TraceFacts7 TraceProps Components SpecComponents BuildFacts ComponentFacts ComponentFacts2 ComponentFacts3 SpecMotion MotionFacts Utils SpecUtils UtilProps UtilProps2 SpecPrism PrismLaw PrismFacts.
Open Scope R_scope.

(** the law at a surface whose normal is known *)
Lemma bounce_at : forall surfaces f w w' n idx, NoDup (map s_id surfaces) -> In f surfaces -> row_surf w = s_id f ->
  world_normal f (here (row_end w)) = Some n -> s_mat f = Refractor idx -> SpecTrace.bounce surfaces w w' ->
  unit n /\ exists n2, idx (row_wl w) = Fin n2 /\
      let k := next_index (row_tilt w) n n2 world_index in
      (row_idx w * vnorm (tangential (row_tilt w) n) < k ->
         row_idx w' = k /\
         vscale (row_idx w) (tangential (row_tilt w) n) = vscale k (tangential (row_tilt w') n) /\
         (if Rlt_dec 0 (vdot (row_tilt w) n) then 0 < vdot (row_tilt w') n else vdot (row_tilt w') n < 0)) /\
      (k <= row_idx w * vnorm (tangential (row_tilt w) n) ->
         row_idx w' = row_idx w /\ mirrored (row_tilt w) (row_tilt w') n).
Proof.
  intros surfaces f w w' n idx ND IN RS WN MA (s & n' & IS & ID & WN' & U & B).
  assert (s = f) by (apply (same_surface surfaces); auto; congruence). subst s.
  assert (n' = n) by congruence. subst n'. split; auto. rewrite MA in B. exact B.
Qed.
Lemma built_ok : forall asort o (P Q : shape -> Prop), (forall s, tree_ok s -> P s -> Q s) -> built asort o P -> built asort o Q.
Proof.
  intros asort o P Q K (prog & l & E & H). exists prog, l. split; auto. intros h N. destruct (H h N) as (h' & s & R & S & T & B & PS).
  exists h', s. repeat (split; auto).
Qed.
Lemma surfaces_ok : forall s, tree_ok s -> forall f, In f (surface_ids s) -> surf_ok f.
Proof.
  induction s as [f b|i op b l IHl r IHr]; cbn [tree_ok surface_ids]; intros T g I.
  - destruct I as [<-|[]]; auto.
  - destruct T as [Tl Tr]. apply in_app_iff in I. destruct I; auto.
Qed.
Lemma sq_lt : forall x y, 0 <= x -> 0 < y -> x * x < y * y -> x < y.
Proof. intros. nra. Qed.
Lemma sq_le : forall x y, 0 <= x -> 0 < y -> y * y <= x * x -> y <= x.
Proof. intros. nra. Qed.

Theorem prism_rows : forall asort, argsort_ok asort -> forall side width idx, 1 / 1000000 <= side -> 1 / 1000000 <= width ->
  built asort (equilateral_prism side width (Refractor idx)) (fun s0 =>
    forall m w1 w2 w3, isometry m -> traced_through asort s0 side width m w1 w2 w3 ->
    forall n, idx (row_wl w1) = Fin n ->
    let a := rise m w1 in let y := skew m w1 in let b := descent n a y in
    a * a + y * y < n * n ->
    row_idx w2 = n /\ n * rise m w2 = a /\ n * skew m w2 = y /\ vdot (row_tilt w2) (mapply m out_left) < 0 /\ 0 < vdot (row_tilt w2) (mapply m out_right) /\
    (b * b + y * y < 1 -> row_idx w3 = 1 /\ vdot (row_tilt w3) (mapply m down_right) = b /\ skew m w3 = y /\ 0 < vdot (row_tilt w3) (mapply m out_right)) /\
    (1 <= b * b + y * y -> row_idx w3 = n /\ mirrored (row_tilt w2) (row_tilt w3) (mapply m out_right))).
Proof.
  intros asort AS side width idx SS WW.
  assert (BU : built asort (equilateral_prism side width (Refractor idx)) (fun s => erase s = prism_tree side width (Refractor idx)))
    by (apply prism_built; auto).
  revert BU. apply built_ok. intros s0 TO ER.
  intros m w1 w2 w3 ISO (gen & h & t & comps & fuel & t' & s & i & j & rows & PR & T & IS & MS & -> & J1 & J2 & J3 & TH) n IX a y b AY.
  destruct TH as (g1 & g2 & g3 & SI & (RS1 & q1 & Q1 & H1) & IN1 & I1 & (RS2 & q2 & Q2 & H2)).
  destruct (prism_parts _ _ _ _ ER) as (f1 & f2 & f3 & SI0 & P1 & P2 & P3).
  pose proof (surfaces_ok _ TO) as OK. rewrite SI0 in OK. rewrite SI0, SI in MS.
  inversion MS as [|? ? ? ? M1 MS2]; subst. inversion MS2 as [|? ? ? ? M2 MS3]; subst. inversion MS3 as [|? ? ? ? M3 _]; subst. clear MS MS2 MS3.
  pose proof PR as ((_ & _ & ND) & _ & _ & _ & PO).
  assert (IG : forall g, In g [g1; g2; g3] -> In g (flat_map surface_ids comps)).
  { intros g G. apply in_flat_map. exists s. rewrite SI. auto. }
  assert (G2 : In g2 (flat_map surface_ids comps)) by (apply IG; simpl; auto).
  assert (G3 : In g3 (flat_map surface_ids comps)) by (apply IG; simpl; auto).
  (* the rows *)
  destruct (proper_legs asort AS _ _ _ _ _ _ PR T) as (LG & FO).
  assert (RW : forall k w, nth_error (rows_with_id i (f_rows (get_results t'))) k = Some w -> In w (f_rows (get_results t')) /\ row_id w = i).
  { intros k w K. apply in_rows_with_id. eapply nth_error_In; eauto. }
  destruct (RW _ _ J1) as (W1 & ID1), (RW _ _ J2) as (W2 & ID2), (RW _ _ J3) as (W3 & ID3).
  destruct (LG _ W1) as (U1 & D1 & _). destruct (LG _ W2) as (U2 & D2 & q & Q & E2 & _). destruct (LG _ W3) as (U3 & D3 & _).
  destruct (FO _ _ _ _ J1 J2) as (E1 & _).
  assert (WL : row_wl w2 = row_wl w1).
  { destruct (fields_carried _ _ _ _ _ _ T w1 W1) as (c & C1 & C2 & _). destruct (fields_carried _ _ _ _ _ _ T w2 W2) as (c' & C1' & C2' & _).
    rewrite ID1 in C1. rewrite ID2, C1 in C1'. injection C1' as <-. congruence. }
  destruct (proper_bounces asort AS _ _ _ _ _ _ PR T i _ eq_refl) as (_ & B & _).
  pose proof (B _ _ _ J1 J2) as B1. pose proof (B _ _ _ J2 J3) as B2. clear B.
  assert (N1 : world_normal g2 (here (row_end w1)) = Some (mapply m out_left)).
  { rewrite H1, (moved_normal m ISO f2 g2 (proj2 (proj2 (OK f2 ltac:(simpl; auto)))) M2).
    rewrite (left_normal side width (Refractor idx) f2 q1); auto. apply (OK f2); simpl; auto. }
  assert (N2 : world_normal g3 (here (row_end w2)) = Some (mapply m out_right)).
  { rewrite H2, (moved_normal m ISO f3 g3 (proj2 (proj2 (OK f3 ltac:(simpl; auto)))) M3).
    rewrite (right_normal side width (Refractor idx) f3 q2); auto. apply (OK f3); simpl; auto. }
  assert (X2 : s_mat g2 = Refractor idx) by (destruct M2 as (_ & _ & _ & -> & _); apply P2).
  assert (X3 : s_mat g3 = Refractor idx) by (destruct M3 as (_ & _ & _ & -> & _); apply P3).
  destruct (bounce_at _ _ _ _ _ _ ND G2 RS1 N1 X2 B1) as (UN1 & k1 & IX1 & L1 & _).
  destruct (bounce_at _ _ _ _ _ _ ND G3 RS2 N2 X3 B2) as (UN2 & k2 & IX2 & L2 & L2').
  assert (k1 = n) by congruence. assert (k2 = n) by congruence. subst k1 k2. clear IX1 IX2 B1 B2.
  assert (NP : 0 < n).
  { destruct (PO g2 G2) as (_ & _ & _ & _ & _ & OP). rewrite X2 in OP. destruct (OP (row_wl w1)) as (n' & E & POS).
    - destruct (fields_carried _ _ _ _ _ _ T w1 W1) as (c & C1 & C2 & _). exists c. split; auto. eapply nth_error_In; eauto.
    - rewrite IX in E. injection E as <-. auto. }
  (* the first face *)
  pose proof (frame_left m ISO _ D1) as F1. rewrite U1 in F1.
  pose proof (sine_sq _ _ U1 UN1) as S1.
  unfold next_index in L1. destruct (Rlt_dec 0 (vdot (row_tilt w1) (mapply m out_left))) as [X|_]; [lra|].
  fold (rise m w1) in F1. fold (skew m w1) in F1. fold a in F1. fold y in F1.
  assert (SN1 : vnorm (tangential (row_tilt w1) (mapply m out_left)) < n).
  { apply sq_lt; auto; [apply sqrt_pos|]. rewrite S1. lra. }
  rewrite I1, Rmult_1_l in L1. destruct (L1 SN1) as (IX2 & SD1 & NEG). clear L1.
  pose proof (snell_dot _ _ _ _ _ _ (dot_out_left_up m ISO) SD1) as A1. fold (rise m w1) in A1. fold (rise m w2) in A1. fold a in A1.
  pose proof (snell_dot _ _ _ _ _ _ (dot_out_left_edge m ISO) SD1) as A2. fold (skew m w1) in A2. fold (skew m w2) in A2. fold y in A2.
  split; [exact IX2|]. split; [lra|]. split; [lra|]. split; [exact NEG|].
  (* inside *)
  pose proof (frame_left m ISO _ D2) as F2. rewrite U2 in F2. fold (rise m w2) in F2. fold (skew m w2) in F2.
  set (c := vdot (row_tilt w2) (mapply m out_left)) in *.
  assert (SQ : sqrt (n * n - a * a - y * y) = - (n * c)).
  { apply sqrt_lem_1; [lra|nra|]. replace (n * n - a * a - y * y) with (n * n * (c * c + rise m w2 * rise m w2 + skew m w2 * skew m w2) - a * a - y * y) by (rewrite F2; ring).
    replace a with (n * rise m w2) by lra. replace y with (n * skew m w2) by lra. ring. }
  assert (BE : b = n * vdot (row_tilt w2) (mapply m down_right)).
  { unfold b, descent. rewrite SQ, (turn_down m ISO _ D2). fold (rise m w2). fold c. replace a with (n * rise m w2) by lra. field. }
  (* the second face *)
  assert (POS : 0 < vdot (row_tilt w2) (mapply m out_right)).
  { assert (STEP : vscale (ray_offset_value + q) (row_tilt w2) = vsub (here (row_end w2)) (here (row_end w1))).
    { rewrite E2, E1. destruct (row_end w1) as [x1 y1 z1 v1], (row_tilt w2) as [x2 y2 z2 v2]. cbn [vw] in D2. subst v2.
      unfold here, vset_w, vsub, vadd, vopp, vscale; cbn [vx vy vz vw]. f_equal; ring. }
    rewrite H1, H2, <- mapply_sub in STEP.
    assert (OFF : 0 < ray_offset_value) by (unfold ray_offset_value; lra).
    apply (Rmult_lt_reg_l (ray_offset_value + q)); [lra|]. rewrite Rmult_0_r, <- vdot_scale_l, STEP.
    destruct Q1 as (l1 & y1 & (_ & B1) & _ & ->). destruct Q2 as (l2 & y2 & _ & _ & ->).
    rewrite (iso_dot m ISO) by (try reflexivity; unfold vsub, vadd, vopp, vscale, pt; cbn [vw]; ring).
    destruct sqrt3 as [K2 K]. unfold vsub, vadd, vopp, vscale, vdot, pt, out_right; cbn [vx vy vz vw].
    match goal with |- 0 < ?e => replace e with (sqrt 3 / 2 * (side - l1)) by field end. apply Rmult_lt_0_compat; lra. }
  split; [exact POS|].
  pose proof (frame_right m ISO _ D2) as F3. rewrite U2 in F3. fold (skew m w2) in F3.
  pose proof (sine_sq _ _ U2 UN2) as S2.
  unfold next_index in L2, L2'. destruct (Rlt_dec 0 (vdot (row_tilt w2) (mapply m out_right))) as [_|X]; [|lra].
  assert (SE : row_idx w2 * vnorm (tangential (row_tilt w2) (mapply m out_right)) * (row_idx w2 * vnorm (tangential (row_tilt w2) (mapply m out_right))) = b * b + y * y).
  { rewrite IX2, BE. replace y with (n * skew m w2) by lra. transitivity (n * n * (vnorm (tangential (row_tilt w2) (mapply m out_right)) * vnorm (tangential (row_tilt w2) (mapply m out_right)))); [ring|].
    rewrite S2, <- F3. ring. }
  assert (S0 : 0 <= row_idx w2 * vnorm (tangential (row_tilt w2) (mapply m out_right))) by (rewrite IX2; apply Rmult_le_pos; [lra|apply sqrt_pos]).
  unfold world_index in L2, L2'. split.
  - intro BY. destruct L2 as (I3 & SD2 & P).
    + apply sq_lt; auto; lra.
    + split; auto. rewrite IX2 in SD2. split; [|split; auto].
      * pose proof (snell_dot _ _ _ _ _ _ (dot_out_right_down m ISO) SD2) as A3. lra.
      * pose proof (snell_dot _ _ _ _ _ _ (dot_out_right_edge m ISO) SD2) as A3. fold (skew m w2) in A3. fold (skew m w3) in A3. lra.
  - intro BY. rewrite <- IX2 at 1. apply L2'. apply sq_le; auto; lra.
Qed.

(** ** Rays in the plane of the triangles *)
Lemma slanted_left : forall m d, isometry m -> vw d = 0 -> unit d -> vdot d (mapply m edgewise) = 0 -> vdot d (mapply m out_left) < 0 ->
  d = mapply m (slanted (asin (vdot d (mapply m up_left)) - PI / 6)).
Proof.
  intros m d ISO D U Y N. pose proof (frame_left m ISO d D) as F. unfold unit in U. rewrite U, Y in F.
  set (a := vdot d (mapply m up_left)) in *. set (c := vdot d (mapply m out_left)) in *.
  assert (A : -1 <= a <= 1) by (split; nra).
  assert (C : cos (asin a) = - c). { rewrite cos_asin by auto. apply sqrt_lem_1; unfold Rsqr; nra. }
  unfold slanted. rewrite cos_minus, sin_minus, cos_PI6, sin_PI6, C, sin_asin by auto.
  unfold a, c in *. clear a c F A C N U. destruct (local_dir m ISO d D) as (l & L & ->).
  rewrite !(iso_dot m ISO) by (auto; reflexivity). rewrite (iso_dot m ISO) in Y by (auto; reflexivity). f_equal. destruct sqrt3 as [K2 _].
  destruct l as [x y z w]. cbn [vw] in L. subst w. unfold vdot, edgewise, up_left, out_left in *; cbn [vx vy vz vw] in *.
  f_equal; [|lra|].
  - transitivity (x * (sqrt 3 * sqrt 3 / 4 + 1 / 4)); [rewrite K2; field|field].
  - transitivity (z * (sqrt 3 * sqrt 3 / 4 + 1 / 4)); [rewrite K2; field|field].
Qed.
Lemma slanted_right : forall m d, isometry m -> vw d = 0 -> unit d -> vdot d (mapply m edgewise) = 0 -> 0 < vdot d (mapply m out_right) ->
  d = mapply m (slanted (PI / 6 - asin (vdot d (mapply m down_right)))).
Proof.
  intros m d ISO D U Y N. pose proof (frame_right m ISO d D) as F. unfold unit in U. rewrite U, Y in F.
  set (a := vdot d (mapply m down_right)) in *. set (c := vdot d (mapply m out_right)) in *.
  assert (A : -1 <= a <= 1) by (split; nra).
  assert (C : cos (asin a) = c). { rewrite cos_asin by auto. apply sqrt_lem_1; unfold Rsqr; nra. }
  unfold slanted. rewrite cos_minus, sin_minus, cos_PI6, sin_PI6, C, sin_asin by auto.
  unfold a, c in *. clear a c F A C N U. destruct (local_dir m ISO d D) as (l & L & ->).
  rewrite !(iso_dot m ISO) by (auto; reflexivity). rewrite (iso_dot m ISO) in Y by (auto; reflexivity). f_equal. destruct sqrt3 as [K2 _].
  destruct l as [x y z w]. cbn [vw] in L. subst w. unfold vdot, edgewise, down_right, out_right in *; cbn [vx vy vz vw] in *.
  f_equal; [|lra|].
  - transitivity (x * (sqrt 3 * sqrt 3 / 4 + 1 / 4)); [rewrite K2; field|field].
  - transitivity (z * (sqrt 3 * sqrt 3 / 4 + 1 / 4)); [rewrite K2; field|field].
Qed.

(** the inner angles add up to the angle of the prism *)
Lemma inner_angles : forall n a, 0 < n -> a * a < n * n -> 0 < sqrt (n * n - a * a - 0 * 0) + sqrt 3 * a ->
  let r1 := asin (a / n) in let r2 := asin (descent n a 0 / n) in
  r1 + r2 = PI / 3 /\ n * sin r1 = a /\ n * sin r2 = descent n a 0.
Proof.
  intros n a N A H r1 r2. pose proof PI_RGT_0 as PP. destruct sqrt3 as [K2 K].
  assert (AN : -1 < a / n < 1).
  { assert (E : a = a / n * n) by (field; lra). set (x := a / n) in *. assert (x * x < 1); [|split; nra].
    apply (Rmult_lt_reg_r (n * n)); [nra|]. replace (x * x * (n * n)) with (x * n * (x * n)) by ring. rewrite <- E. lra. }
  assert (S1 : sin r1 = a / n) by (apply sin_asin; lra).
  pose proof (asin_bound (a / n)) as B1. fold r1 in B1.
  assert (C1 : n * cos r1 = sqrt (n * n - a * a - 0 * 0)).
  { symmetry. apply sqrt_lem_1; [lra| |].
    - apply Rmult_le_pos; [lra|apply cos_ge_0; lra].
    - pose proof (sin2_cos2 r1) as P. unfold Rsqr in P. replace (n * cos r1 * (n * cos r1)) with (n * n * (1 - sin r1 * sin r1)) by (rewrite <- P; ring). rewrite S1. field. lra. }
  assert (DE : descent n a 0 / n = sin (PI / 3 - r1)).
  { unfold descent. rewrite <- C1, sin_minus, sin_PI3, cos_PI3, S1. field. lra. }
  assert (LOW : - (PI / 6) < r1).
  { assert (0 < sin (r1 + PI / 6)).
    { rewrite sin_plus, sin_PI6, cos_PI6, S1. apply (Rmult_lt_reg_l (2 * n)); [lra|]. rewrite <- C1 in H.
      replace (2 * n * (a / n * (sqrt 3 / 2) + cos r1 * (1 / 2))) with (n * cos r1 + sqrt 3 * a) by (field; lra). lra. }
    destruct (Rlt_dec (- (PI / 6)) r1); auto. exfalso.
    assert (sin (r1 + PI / 6) <= 0); [|lra]. replace (r1 + PI / 6) with (- (- (r1 + PI / 6))) by ring. rewrite sin_neg.
    assert (0 <= sin (- (r1 + PI / 6))) by (apply sin_ge_0; lra). lra. }
  assert (R2 : r2 = PI / 3 - r1). { unfold r2. rewrite DE. apply asin_sin. lra. }
  split; [lra|]. split; [rewrite S1; field; lra|]. rewrite R2, <- DE. field. lra.
Qed.
Lemma descent_grows : forall n n' a y, 0 < n -> n < n' -> a * a + y * y < n * n -> descent n a y < descent n' a y.
Proof.
  intros n n' a y N NN H. unfold descent. destruct sqrt3 as [_ K].
  assert (sqrt (n * n - a * a - y * y) < sqrt (n' * n' - a * a - y * y)) by (apply sqrt_lt_1; nra). nra.
Qed.
Lemma asin_grows : forall x y, -1 <= x -> x < y -> y <= 1 -> asin x < asin y.
Proof. intros x y X XY Y. apply sin_mono_lt; try apply asin_bound. rewrite !sin_asin; lra. Qed.

Theorem prism_deviation : forall asort, argsort_ok asort -> forall side width idx, 1 / 1000000 <= side -> 1 / 1000000 <= width ->
  built asort (equilateral_prism side width (Refractor idx)) (fun s0 =>
    forall m w1 w2 w3, isometry m -> traced_through asort s0 side width m w1 w2 w3 ->
    forall n, idx (row_wl w1) = Fin n -> 1 <= n -> skew m w1 = 0 ->
    let a := rise m w1 in let b := descent n a 0 in b * b < 1 ->
    let least := 2 * asin (n / 2) - PI / 3 in let deviation := asin a + asin b - PI / 3 in
    row_tilt w1 = mapply m (slanted (asin a - PI / 6)) /\
    row_tilt w3 = mapply m (slanted (asin a - PI / 6 - deviation)) /\
    n < 2 /\ 0 <= least <= deviation /\ (1 < n -> (deviation = least <-> a = n / 2))).
Proof.
  intros asort AS side width idx SS WW. generalize (prism_rows asort AS side width idx SS WW). apply built_weaken. intros s0 PR.
  intros m w1 w2 w3 ISO TT n IX N1 SK a b BB least deviation.
  assert (DU : forall w, w = w1 \/ w = w3 -> unit (row_tilt w) /\ vw (row_tilt w) = 0).
  { destruct TT as (gen & h & t & comps & fuel & t' & s & i & j & rows & PRO & T & IS & MS & -> & J1 & J2 & J3 & TH).
    destruct (proper_legs asort AS _ _ _ _ _ _ PRO T) as (LG & _). intros w [-> | ->].
    - destruct (LG w1) as (U & D & _); auto. apply nth_error_In in J1. apply in_rows_with_id in J1. tauto.
    - destruct (LG w3) as (U & D & _); auto. apply nth_error_In in J3. apply in_rows_with_id in J3. tauto. }
  destruct (DU w1 (or_introl eq_refl)) as (U1 & D1). destruct (DU w3 (or_intror eq_refl)) as (U3 & D3). clear DU.
  assert (IN1 : vdot (row_tilt w1) (mapply m out_left) < 0).
  { destruct TT as (gen & h & t & comps & fuel & t' & s & i & j & rows & _ & _ & _ & _ & _ & _ & _ & _ & (b1 & b2 & b3 & _ & _ & H & _)). exact H. }
  assert (A1 : a * a < 1).
  { pose proof (frame_left m ISO _ D1) as F. unfold unit in U1. rewrite U1 in F. fold (rise m w1) in F. fold (skew m w1) in F. fold a in F. nra. }
  pose proof (PR m w1 w2 w3 ISO TT n IX) as R. cbv zeta in R. rewrite SK in R. fold a in R. fold b in R.
  destruct R as (I2 & R2 & K2 & C2 & P2 & R3 & _); [nra|]. destruct R3 as (I3 & B3 & K3 & P3); [lra|].
  assert (D2 : vw (row_tilt w2) = 0 /\ unit (row_tilt w2)).
  { destruct TT as (gen & h & t & comps & fuel & t' & s & i & j & rows & PRO & T & IS & MS & -> & J1 & J2 & J3 & TH).
    destruct (proper_legs asort AS _ _ _ _ _ _ PRO T) as (LG & _).
    destruct (LG w2) as (U & D & _); auto. apply nth_error_In in J2. apply in_rows_with_id in J2. tauto. }
  destruct D2 as (D2 & U2). destruct sqrt3 as [Q2 Q].
  assert (PL : 0 < sqrt (n * n - a * a - 0 * 0) + sqrt 3 * a).
  { pose proof (frame_left m ISO _ D2) as F. unfold unit in U2. rewrite U2 in F. fold (rise m w2) in F. fold (skew m w2) in F.
    set (c := vdot (row_tilt w2) (mapply m out_left)) in *.
    assert (K20 : skew m w2 = 0) by nra.
    assert (SQ : sqrt (n * n - a * a - 0 * 0) = - (n * c)).
    { apply sqrt_lem_1; [nra|nra|]. rewrite K20 in F. replace a with (n * rise m w2) by lra. replace (n * n - n * rise m w2 * (n * rise m w2) - 0 * 0) with (n * n * (1 - rise m w2 * rise m w2)) by ring.
      rewrite <- F. ring. }
    rewrite SQ. replace a with (n * rise m w2) by lra.
    assert (E : vdot (row_tilt w2) (mapply m out_right) = - (1 / 2) * c + sqrt 3 / 2 * rise m w2).
    { unfold c, rise. destruct (local_dir m ISO _ D2) as (l & L & ->). rewrite !(iso_dot m ISO) by (auto; reflexivity).
      destruct l as [x y z w]. cbn [vw] in L. subst w. unfold vdot, out_right, up_left, out_left; cbn [vx vy vz vw].
      transitivity (z * (sqrt 3 * sqrt 3 / 4 - 1 / 4) + sqrt 3 / 2 * x); [rewrite Q2; field|field]. }
    rewrite E in P2. nra. }
  destruct (inner_angles n a ltac:(lra) ltac:(nra) PL) as (SUM & S1 & S2). fold b in S2, SUM.
  set (r1 := asin (a / n)) in *. set (r2 := asin (b / n)) in *.
  pose proof (asin_bound (a / n)) as E1. fold r1 in E1. pose proof (asin_bound (b / n)) as E2. fold r2 in E2.
  destruct (bend_least n r1 r2 N1 SUM E1 E2) as (N2 & LE & EQ); [rewrite S1; split; nra|rewrite S2; split; nra|].
  unfold bend in LE, EQ. rewrite S1, S2 in LE, EQ.
  split; [apply (slanted_left m _ ISO D1 U1 SK IN1)|].
  split. { unfold deviation. replace (asin a - PI / 6 - (asin a + asin b - PI / 3)) with (PI / 6 - asin b) by field. rewrite <- B3.
    apply (slanted_right m _ ISO D3 U3); auto. }
  split; [exact N2|]. split.
  { unfold least, deviation. split; [|lra]. assert (asin (1 / 2) <= asin (n / 2)).
    { destruct (Req_dec n 1) as [-> |]; [lra|]. left. apply asin_grows; lra. }
    replace (asin (1 / 2)) with (PI / 6) in H; [lra|]. rewrite <- sin_PI6. symmetry. apply asin_sin. pose proof PI_RGT_0. lra. }
  intro N1'. specialize (EQ N1'). unfold deviation, least. split; intro H.
  - assert (r1 = r2) by (apply EQ; lra). assert (r1 = PI / 6) by lra. rewrite <- S1, H1, sin_PI6. field.
  - assert (r1 = PI / 6). { unfold r1. replace (a / n) with (sin (PI / 6)) by (rewrite sin_PI6, H; field; lra). apply asin_sin. pose proof PI_RGT_0. lra. }
    assert (asin a + asin b = 2 * asin (n / 2)); [|lra]. apply EQ. lra.
Qed.

Lemma built_both : forall asort o (P Q : shape -> Prop), built asort o P -> built asort o Q -> built asort o (fun s => P s /\ Q s).
Proof.
  intros asort o P Q (prog & l & E & B) (prog' & l' & E' & B'). rewrite E in E'. injection E' as <- <-. exists prog, l. split; [exact E|]. intros h N.
  destruct (B h N) as (h' & s & R & Sh & TO & BC & K). destruct (B' h N) as (h2 & s2 & R2 & Sh2 & _ & _ & K2).
  rewrite R in R2. injection R2 as <-. rewrite Sh in Sh2. injection Sh2 as <-. exists h', s. auto 10.
Qed.
Theorem prism_disperses : forall asort, argsort_ok asort -> forall side width g, 1 / 1000000 <= side -> 1 / 1000000 <= width -> g <> Ideal ->
  built asort (equilateral_prism side width (glass_material g)) (fun s0 =>
    forall m w1 w2 w3 v1 v2 v3, isometry m -> traced_through asort s0 side width m w1 w2 w3 -> traced_through asort s0 side width m v1 v2 v3 ->
    row_tilt w1 = row_tilt v1 -> SpecUtils.visible (row_wl w1) -> SpecUtils.visible (row_wl v1) -> row_wl w1 < row_wl v1 ->
    row_idx w3 = 1 -> row_idx v3 = 1 ->
    vdot (row_tilt v3) (mapply m down_right) < vdot (row_tilt w3) (mapply m down_right) /\
    (skew m w1 = 0 -> exists e long short, 0 <= long < short /\ row_tilt w1 = mapply m (slanted e) /\
       row_tilt v3 = mapply m (slanted (e - long)) /\ row_tilt w3 = mapply m (slanted (e - short)))).
Proof.
  intros asort AS side width g SS WW G. unfold glass_material.
  generalize (built_both _ _ _ _ (prism_rows asort AS side width (Utils.glass g) SS WW) (prism_deviation asort AS side width (Utils.glass g) SS WW)).
  apply built_weaken. intros s0 (PR & PD) m w1 w2 w3 v1 v2 v3 ISO TW TV SAME VW VV LT IW IV.
  destruct (catalogue_visible g _ VW) as (n & EN & N1). destruct (catalogue_visible g _ VV) as (n' & EN' & N1').
  pose proof (normal_dispersion g _ _ _ _ G VW VV LT EN EN') as NN.
  assert (RI : rise m v1 = rise m w1) by (unfold rise; rewrite SAME; reflexivity).
  assert (SK : skew m v1 = skew m w1) by (unfold skew; rewrite SAME; reflexivity).
  assert (AY : rise m w1 * rise m w1 + skew m w1 * skew m w1 <= 1).
  { destruct TW as (gen & h & t & comps & fuel & t' & s & i & j & rows & PRO & T & IS & MS & -> & J1 & J2 & J3 & TH).
    destruct (proper_legs asort AS _ _ _ _ _ _ PRO T) as (LG & _).
    destruct (LG w1) as (U & D & _). { apply nth_error_In in J1. apply in_rows_with_id in J1. tauto. }
    pose proof (frame_left m ISO _ D) as F. unfold unit in U. rewrite U in F. fold (rise m w1) in F. fold (skew m w1) in F. nra. }
  pose proof (PR m w1 w2 w3 ISO TW n EN) as R. pose proof (PR m v1 v2 v3 ISO TV n' EN') as R'. cbv zeta in R, R'. rewrite RI, SK in R'.
  destruct R as (_ & _ & _ & _ & _ & RT & RM); [nra|]. destruct R' as (_ & _ & _ & _ & _ & RT' & RM'); [nra|].
  set (a := rise m w1) in *. set (y := skew m w1) in *.
  assert (B : descent n a y * descent n a y + y * y < 1).
  { destruct (Rlt_dec (descent n a y * descent n a y + y * y) 1); auto. destruct RM as (H & _); lra. }
  assert (B' : descent n' a y * descent n' a y + y * y < 1).
  { destruct (Rlt_dec (descent n' a y * descent n' a y + y * y) 1); auto. destruct RM' as (H & _); lra. }
  destruct (RT B) as (_ & D3 & _). destruct (RT' B') as (_ & D3' & _).
  assert (GROW : descent n' a y < descent n a y) by (apply descent_grows; nra).
  split; [lra|]. intro Y0.
  pose proof (PD m w1 w2 w3 ISO TW n EN) as P. pose proof (PD m v1 v2 v3 ISO TV n' EN') as P'. cbv zeta in P, P'. rewrite RI, SK in P'.
  fold a in P. fold y in P. rewrite Y0 in B, B', GROW. specialize (P ltac:(lra) Y0 ltac:(lra)). specialize (P' ltac:(lra) Y0 ltac:(lra)).
  destruct P as (T1 & T3 & _ & L & _). destruct P' as (_ & T3' & _ & L' & _).
  exists (asin a - PI / 6), (asin a + asin (descent n' a 0) - PI / 3), (asin a + asin (descent n a 0) - PI / 3).
  repeat split; auto; [lra|]. assert (asin (descent n' a 0) < asin (descent n a 0)) by (apply asin_grows; nra). lra.
Qed.
