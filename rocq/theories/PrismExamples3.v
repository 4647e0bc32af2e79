(** * PrismExamples3: rays that pass the prism, of one index and of two *)
From Coq Require Import Reals List Bool ZArith Lra Lia Psatz.
Import ListNotations.
From Verif Require Import XR XRFacts Arr Lin LinFacts Ops OpsFacts SpecOptics Prim Csg Surf SpecGeom SpecTree CsgProps SurfFacts TreeFacts World SpecWorld WorldFacts WorldFacts3 WorldFacts5 WorldFacts4 Tracer SpecTrace
  TraceFacts4 TraceFacts5 TraceFacts7 TraceFacts8 TraceFacts9 TraceProps Components SpecComponents BuildFacts ComponentFacts ComponentFacts2 ComponentFacts3 SpecMotion MotionFacts SpecCrossing Crossing CrossingProps SymmetryExamples GaussExamples OpticsExamples
  SpecPrism PrismLaw PrismFacts PrismProps PrismExamples PrismExamples2.
Open Scope R_scope.

(** The three directions of a passage in the plane of the triangles, at the index [n] *)
Definition passage (n e0 f0 e1 f1 e2 f2 : R) : Prop :=
  1 < n < 2 /\
  (9 / 10 < e0 < 102 / 100 /\ 1 / 10 < f0 < 4 / 10 /\ 1 < sqrt 3 * e0 - f0 < 2 /\ 1 < e0 + sqrt 3 * f0 < 2 /\ oblique e0 f0 /\ e0 * e0 + f0 * f0 = 1) /\
  (98 / 100 < e1 < 102 / 100 /\ - (1 / 10) < f1 < 1 / 10 /\ oblique e1 f1 /\ e1 * e1 + f1 * f1 = 1) /\
  (9 / 10 < e2 < 102 / 100 /\ - (4 / 10) < f2 < - (1 / 10) /\ oblique e2 f2 /\ e2 * e2 + f2 * f2 = 1) /\
  n * (e1 + sqrt 3 * f1) = e0 + sqrt 3 * f0 /\ n * (e1 - sqrt 3 * f1) = e2 - sqrt 3 * f2.

(** A direction in the plane is known by its part along a face and the side it goes to *)
Lemma by_left : forall d e f, unit d -> vw d = 0 -> e * e + f * f = 1 -> vdot d up_left = e / 2 + sqrt 3 / 2 * f -> vdot d edgewise = 0 ->
  vdot d out_left < 0 -> 0 < sqrt 3 * e - f -> d = V4 e 0 f 0.
Proof.
  intros [x y z w] e f U D EF A B C N. destruct sqrt3 as [K2 K]. unfold unit, vdot, up_left, edgewise, out_left in *; cbn [vx vy vz vw] in *. subst w.
  assert (y = 0) by lra. subst y. assert (A' : x + sqrt 3 * z = e + sqrt 3 * f) by lra. clear A B.
  assert (Q : (sqrt 3 * x - z) * (sqrt 3 * x - z) = (sqrt 3 * e - f) * (sqrt 3 * e - f)).
  { assert (A2 : (x + sqrt 3 * z) * (x + sqrt 3 * z) = (e + sqrt 3 * f) * (e + sqrt 3 * f)) by (rewrite A'; reflexivity). 
    assert (E1 : forall p q, (sqrt 3 * p - q) * (sqrt 3 * p - q) = 4 * (p * p + q * q) - (p + sqrt 3 * q) * (p + sqrt 3 * q)).
    { intros p q. transitivity (sqrt 3 * sqrt 3 * (p * p) + q * q - 2 * sqrt 3 * p * q); [ring|]. transitivity (4 * (p * p + q * q) - (p * p + sqrt 3 * sqrt 3 * (q * q) + 2 * sqrt 3 * p * q)); [rewrite K2; ring|ring]. }
    rewrite !E1. lra. }
  assert (R : sqrt 3 * x - z = sqrt 3 * e - f) by nra. clear Q.
  assert (X : x = e).
  { assert (sqrt 3 * (sqrt 3 * x - z) = sqrt 3 * (sqrt 3 * e - f)) by (rewrite R; reflexivity). assert (sqrt 3 * sqrt 3 * x - sqrt 3 * z = sqrt 3 * sqrt 3 * e - sqrt 3 * f) by lra. rewrite K2 in H0. lra. }
  subst x. assert (z = f) by lra. subst z. reflexivity.
Qed.
Lemma by_right : forall d e f, unit d -> vw d = 0 -> e * e + f * f = 1 -> vdot d down_right = e / 2 - sqrt 3 / 2 * f -> vdot d edgewise = 0 ->
  0 < vdot d out_right -> 0 < sqrt 3 * e + f -> d = V4 e 0 f 0.
Proof.
  intros [x y z w] e f U D EF A B C N. unfold unit, vdot, down_right, edgewise, out_right in *; cbn [vx vy vz vw] in *. subst w.
  assert (H : V4 x y (- z) 0 = V4 e 0 (- f) 0).
  { apply by_left; unfold unit, vdot, up_left, edgewise, out_left; cbn [vx vy vz vw]; try lra. }
  injection H as -> -> H. f_equal. lra.
Qed.

Section Path.
  Variables (idx : R -> xr) (surfaces : list surf) (wl n e0 f0 e1 f1 e2 f2 : R).
  Hypotheses (ND : NoDup (map s_id surfaces)) (IN : idx wl = Fin n) (PA : passage n e0 f0 e1 f1 e2 f2).
  Let gl := Refractor idx.
  Definition cross_at : R := - (1 / 2) + sqrt 3 / (sqrt 3 * e1 + f1) * e1.
  Lemma cross_range : 4 / 10 < cross_at < 6 / 10 /\ sqrt 3 / (sqrt 3 * e1 + f1) * f1 = sqrt 3 * (1 / 2 - cross_at).
  Proof.
    pose proof PA as PA_; unfold passage in PA_; destruct PA_ as (_ & _ & (A & B & _) & _). destruct sqrt3 as [K2 K]. assert (K3 : 173 / 100 < sqrt 3 < 174 / 100) by (split; nra). unfold cross_at.
    assert (P : 15 / 10 < sqrt 3 * e1 + f1) by nra. set (c := sqrt 3 * e1 + f1) in *.
    assert (Q : sqrt 3 / c * c = sqrt 3) by (field; lra). set (q := sqrt 3 / c) in *. clearbody q.
    assert (Q1 : 9 / 10 < q < 11 / 10) by (split; unfold c in *; nra).
    assert (X : sqrt 3 * (q * e1) + q * f1 = sqrt 3) by (unfold c in Q; lra).
    assert (Y : - (15 / 100) < q * f1 < 15 / 100) by (split; nra). split; [split; nra|lra].
  Qed.
  Lemma enter : forall f w w', surf_ok f -> is_part f (cutter 2 2) gl (left_place 2) (-1) -> In f surfaces -> row_surf w = s_id f -> row_wl w = wl ->
    here (row_end w) = pt (- (1 / 2)) 0 0 -> row_tilt w = V4 e0 0 f0 0 -> row_idx w = 1 -> SpecTrace.bounce surfaces w w' ->
    unit (row_tilt w') -> vw (row_tilt w') = 0 -> row_tilt w' = V4 e1 0 f1 0 /\ row_idx w' = n.
  Proof.
    intros f w w' OK P I RS WL H T IX B U D. pose proof PA as PA_; unfold passage in PA_; destruct PA_ as (N12 & (A1 & A2 & A3 & A4 & _ & A5) & (B1 & B2 & _ & B3) & (C1 & C2 & _ & C3) & S1 & S2). destruct sqrt3 as [K2 K]. assert (K3 : 173 / 100 < sqrt 3 < 174 / 100) by (split; nra).
    assert (N : world_normal f (here (row_end w)) = Some out_left).
    { rewrite H. apply (left_normal 2 2 gl); auto; try lra; [apply OK|]. exists 1, 0. unfold off_the_base. rewrite Rabs_R0. split; [lra|]. split; [lra|]. f_equal; field. }
    destruct (bounce_at _ _ _ _ _ _ ND I RS N (proj1 (proj2 P)) B) as (UN & n' & E & L & _). rewrite WL, IN in E. injection E as <-.
    assert (UT : unit (row_tilt w)) by (rewrite T; unfold unit, vdot; cbn [vx vy vz vw]; lra).
    set (c := (sqrt 3 * e0 - f0) / 2). assert (CC : 1 / 2 < c < 1) by (unfold c; lra).
    assert (DN : vdot (row_tilt w) out_left = - c). { rewrite T. unfold c, vdot, out_left; cbn [vx vy vz vw]. field. }
    pose proof (sine_sq _ _ UT UN) as S. rewrite DN in S. unfold next_index in L. rewrite DN in L. destruct (Rlt_dec 0 (- c)) as [X|_]; [lra|].
    destruct L as (I' & SN & C).
    { rewrite IX, Rmult_1_l. apply sq_lt; [apply sqrt_pos|lra|]. nra. }
    split; [|exact I']. rewrite IX in SN. pose proof dot_out_left_up mid id_iso as E1. pose proof dot_out_left_edge mid id_iso as E2. rewrite !mid_at in E1, E2.
    pose proof (snell_dot _ _ _ _ _ _ E1 SN) as T1. pose proof (snell_dot _ _ _ _ _ _ E2 SN) as T2. rewrite T in T1, T2.
    apply by_left; auto.
    - unfold vdot at 1 in T1. unfold up_left at 1 2 3 4 in T1. cbn [vx vy vz vw] in T1.
      apply Rmult_eq_reg_l with n; [|lra]. rewrite <- T1. transitivity ((n * (e1 + sqrt 3 * f1)) / 2); [rewrite S1; field|field].
    - unfold vdot at 1 in T2. unfold edgewise at 1 2 3 4 in T2. cbn [vx vy vz vw] in T2. apply Rmult_eq_reg_l with n; lra.
    - nra.
  Qed.
  Lemma leave : forall f w w', surf_ok f -> is_part f (cutter 2 2) gl (right_place 2) (-1) -> In f surfaces -> row_surf w = s_id f -> row_wl w = wl ->
    here (row_end w) = pt cross_at 0 (sqrt 3 * (1 / 2 - cross_at)) -> row_tilt w = V4 e1 0 f1 0 -> row_idx w = n -> SpecTrace.bounce surfaces w w' ->
    unit (row_tilt w') -> vw (row_tilt w') = 0 -> row_tilt w' = V4 e2 0 f2 0 /\ row_idx w' = 1.
  Proof.
    intros f w w' OK P I RS WL H T IX B U D. destruct cross_range as (XR & _).
    pose proof PA as PA_; unfold passage in PA_; destruct PA_ as (N12 & (A1 & A2 & A3 & A4 & _ & A5) & (B1 & B2 & _ & B3) & (C1 & C2 & _ & C3) & S1 & S2). destruct sqrt3 as [K2 K]. assert (K3 : 173 / 100 < sqrt 3 < 174 / 100) by (split; nra).
    assert (N : world_normal f (here (row_end w)) = Some out_right).
    { rewrite H. apply (right_normal 2 2 gl); auto; try lra; [apply OK|]. exists (2 - 2 * cross_at), 0. unfold off_the_base. rewrite Rabs_R0. split; [lra|]. split; [lra|]. f_equal; field. }
    destruct (bounce_at _ _ _ _ _ _ ND I RS N (proj1 (proj2 P)) B) as (UN & n' & E & L & _). rewrite WL, IN in E. injection E as <-.
    assert (UT : unit (row_tilt w)) by (rewrite T; unfold unit, vdot; cbn [vx vy vz vw]; lra).
    set (c := (sqrt 3 * e1 + f1) / 2). assert (CC : 7 / 10 < c) by (unfold c; nra).
    assert (DN : vdot (row_tilt w) out_right = c). { rewrite T. unfold c, vdot, out_right; cbn [vx vy vz vw]. field. }
    pose proof (sine_sq _ _ UT UN) as S. rewrite DN in S. unfold next_index in L. rewrite DN in L. destruct (Rlt_dec 0 c) as [_|X]; [|lra].
    destruct L as (I' & SN & C).
    { rewrite IX. unfold world_index.
      assert (Q : forall p q, 1 - (sqrt 3 * p + q) / 2 * ((sqrt 3 * p + q) / 2) = (p - sqrt 3 * q) / 2 * ((p - sqrt 3 * q) / 2) + (1 - (p * p + q * q))).
      { intros p q. transitivity (1 - (sqrt 3 * sqrt 3 * (p * p) + q * q + 2 * sqrt 3 * p * q) / 4); [field|]. transitivity ((p * p + sqrt 3 * sqrt 3 * (q * q) - 2 * sqrt 3 * p * q) / 4 + (1 - (p * p + q * q))); [rewrite K2; field|field]. }
      unfold c in S. replace (vnorm (tangential (row_tilt w) out_right)) with ((e1 - sqrt 3 * f1) / 2).
      - replace (n * ((e1 - sqrt 3 * f1) / 2)) with ((e2 - sqrt 3 * f2) / 2) by lra.
        apply sq_lt; [nra|lra|]. pose proof (Q e2 f2) as Q2. assert (1 / 2 < (sqrt 3 * e2 + f2) / 2) by nra. nra.
      - assert (0 < (e1 - sqrt 3 * f1) / 2) by nra. assert (0 <= vnorm (tangential (row_tilt w) out_right)) by apply sqrt_pos.
        assert (0 <= (e1 - sqrt 3 * f1) / 2) by lra. pose proof (Q e1 f1) as Q2. rewrite B3 in Q2. apply Rsqr_inj; auto. unfold Rsqr. lra. }
    split; [|exact I']. rewrite IX in SN. unfold world_index in SN. pose proof dot_out_right_down mid id_iso as E1. pose proof dot_out_right_edge mid id_iso as E2. rewrite !mid_at in E1, E2.
    pose proof (snell_dot _ _ _ _ _ _ E1 SN) as T1. pose proof (snell_dot _ _ _ _ _ _ E2 SN) as T2. rewrite T in T1, T2.
    apply by_right; auto.
    - unfold vdot at 1 in T1. unfold down_right at 1 2 3 4 in T1. cbn [vx vy vz vw] in T1.
      transitivity (n * (e1 * (1 / 2) + 0 * 0 + f1 * - (sqrt 3 / 2) + 0 * 0)); [lra|]. transitivity (n * (e1 - sqrt 3 * f1) / 2); [field|rewrite S2; field].
    - unfold vdot at 1 in T2. unfold edgewise at 1 2 3 4 in T2. cbn [vx vy vz vw] in T2. lra.
    - nra.
  Qed.
End Path.

Lemma here_trim : forall v, vw v = 1 -> here (trim v) = v.
Proof. intros [x y z w] W. cbn in W. subst. reflexivity. Qed.

(** Rays of any wavelengths, with one passage for each, pass the prism one after the other *)
Lemma prism_passes : forall asort, argsort_ok asort -> forall idx e0 f0 wls, e0 * e0 + f0 * f0 = 1 -> wls <> [] ->
  (forall wl, In wl wls -> exists n, idx wl = Fin n /\ 0 < n) ->
  forall P, built asort (equilateral_prism 2 2 (Refractor idx)) P ->
  exists s, P s /\ forall i wl n e1 f1 e2 f2, nth_error wls i = Some wl -> idx wl = Fin n -> passage n e0 f0 e1 f1 e2 f2 ->
  exists w1 w2 w3, traced_through asort s 2 2 mid w1 w2 w3 /\ row_wl w1 = wl /\ row_tilt w1 = V4 e0 0 f0 0 /\ row_idx w3 = 1 /\ row_start w1 = trim (origin (ray_in e0 f0)).
Proof.
  intros asort AS idx e0 f0 wls UN0 NWL IDX P BU. destruct (prism_scene asort AS idx e0 f0 wls UN0 NWL IDX P BU) as (h & s & g & bx & t & PS & ER & TO & BC & GO & GP & GW & GM & GB & NW & PRO).
  exists s. split; [exact PS|]. intros i wl n e1 f1 e2 f2 NI IN PA. set (gl := Refractor idx) in *.
  pose proof (cross_range n e0 f0 e1 f1 e2 f2 PA) as (XR & XZ).
  set (comps := [s; Leaf g bx]) in *. destruct sqrt3 as [K2 K].
  pose proof PA as (N12 & (A1 & A2 & A3 & A4 & AO & A5) & (B1 & B2 & BOb & B3) & (C1 & C2 & CO & C3) & S1' & S2').
  destruct (new_tracer_table _ _ _ _ _ _ NW) as (_ & EC & ES & EN & EL).
  destruct (proper_trace_ok asort AS _ _ _ _ 22 PRO) as (t' & T); [rewrite EL; lia|].
  pose proof PRO as ((SHP & _ & ND) & _ & _ & _ & _).
  assert (SR : source_rays (colours e0 f0 wls) t = map (fun wl => Col (ray_in e0 f0) 0 100 wl 1 0) wls) by (unfold source_rays; rewrite ES, EN; cbn [map concat]; rewrite app_nil_r; reflexivity).
  assert (SI' : nth_error (source_rays (colours e0 f0 wls) t) i = Some (Col (ray_in e0 f0) 0 100 wl 1 0)) by (rewrite SR; apply (map_nth_error (fun wl => Col (ray_in e0 f0) 0 100 wl 1 0)); exact NI).
  destruct (in_hit asort gl s g bx AS ER TO BC GO GP GW GB e0 f0 A1 A2 A3 A4 AO) as (L2 & F2 & P2 & H1).
  destruct (mid_hit asort gl s g bx AS ER TO BC GO GP GW GB e1 f1 B1 B2 BOb) as (L3 & F3 & P3 & H2).
  destruct (out_hit asort gl s g bx AS ER TO BC GO GP GW GB (cross_at e1 f1) e2 f2 XR C1 C2 CO) as (q & Q & H3). fold comps in H1, H2, H3.
  pose proof (surfaces_ok _ TO _ F2) as OK2. pose proof (surfaces_ok _ TO _ F3) as OK3.
  assert (I2 : In L2 (flat_map surface_ids comps)) by (apply in_flat_map; exists s; split; [left; reflexivity|exact F2]).
  assert (I3 : In L3 (flat_map surface_ids comps)) by (apply in_flat_map; exists s; split; [left; reflexivity|exact F3]).
  set (rows := rows_with_id i (f_rows (get_results t'))).
  assert (NE : rows <> []).
  { intro X. apply (no_row asort AS _ _ _ _ _ comps T SHP i (Col (ray_in e0 f0) 0 100 wl 1 0)) in X; [|exact SI'].
    destruct X as [X|X].
    - unfold stopped, ray_in, flat_ray, vnorm in X. cbn [c_ray direction] in X. unfold vdot in X; cbn [vx vy vz vw] in X.
      replace (e0 * e0 + 0 * 0 + f0 * f0 + 0 * 0) with 1 in X by lra. rewrite sqrt_1 in X. unfold atol in X. lra.
    - destruct H1 as (a & b & R & _). apply (X _ _ _ _ R). }
  destruct rows as [|w1 rs] eqn:ER'; [contradiction|]. unfold rows in ER'.
  assert (J1 : nth_error (rows_with_id i (f_rows (get_results t'))) 0 = Some w1) by (rewrite ER'; reflexivity).
  destruct (proper_bounces asort AS _ _ _ _ _ _ PRO T i _ eq_refl) as (B0 & _ & _). destruct (B0 w1 J1) as (c & C & FR).
  rewrite SI' in C. injection C as <-. destruct FR as (S1 & D1 & X1 & L1 & G1 & _). cbn [c_ray c_idx c_wl c_gen ray_in flat_ray origin direction] in *.
  destruct (proper_legs asort AS _ _ _ _ _ _ PRO T) as (LG & _).
  assert (LG1 : leg asort comps w1) by (apply LG, (in_rows_with_id i _ w1); apply nth_error_In in J1; exact J1).
  assert (R1 : Ray (here (row_start w1)) (row_tilt w1) = ray_in e0 f0) by (rewrite S1, D1, here_trim by reflexivity; reflexivity).
  destruct (leg_end _ _ _ (ray_in e0 f0) _ _ LG1 R1 H1) as (RS1 & E1).
  assert (EW1 : here (row_end w1) = pt (- (1 / 2)) 0 0). { rewrite E1, ray_in_at. f_equal; field. }
  assert (NX1 : forall w', follows w1 w' -> SpecTrace.bounce (flat_map surface_ids comps) w1 w' -> unit (row_tilt w') -> vw (row_tilt w') = 0 ->
     row_tilt w' = V4 e1 0 f1 0 /\ row_idx w' = n /\ Ray (here (row_start w')) (row_tilt w') = ray_mid e1 f1).
  { intros w' FO BO U D. destruct (enter idx _ wl n e0 f0 e1 f1 e2 f2 ND IN PA L2 w1 w') as (TI & IX); auto. split; auto. split; auto. rewrite TI. unfold ray_mid, flat_ray. f_equal.
    destruct FO as (-> & _). rewrite TI. clear - EW1. destruct (row_end w1) as [x y z w]. unfold here, vset_w, pt in EW1. cbn [vx vy vz] in EW1. injection EW1 as -> -> ->.
    unfold here, vset_w, vadd, vscale, pt; cbn [vx vy vz vw]. f_equal; ring. }
  destruct (advance asort AS _ _ _ _ _ _ i 0%nat w1 L2 PRO T J1) as (w2 & J2 & FO2 & BO2 & LG2 & WL2); auto.
  { rewrite G1, EL. discriminate. }
  { rewrite (proj1 (proj2 P2)). discriminate. }
  { intros w' FO BO U D. destruct (NX1 w' FO BO U D) as (_ & _ & ->). eauto. }
  destruct (NX1 w2 FO2 BO2) as (T2 & X2 & R2); [apply LG2|apply LG2|].
  destruct (leg_end _ _ _ (ray_mid e1 f1) _ _ LG2 R2 H2) as (RS2 & E2).
  assert (EW2 : here (row_end w2) = pt (cross_at e1 f1) 0 (sqrt 3 * (1 / 2 - cross_at e1 f1))). { rewrite E2, ray_mid_at. unfold reach_mid. replace (ray_offset_value + (sqrt 3 / (sqrt 3 * e1 + f1) - ray_offset_value)) with (sqrt 3 / (sqrt 3 * e1 + f1)) by ring. f_equal. exact XZ. }
  assert (NX2 : forall w', follows w2 w' -> SpecTrace.bounce (flat_map surface_ids comps) w2 w' -> unit (row_tilt w') -> vw (row_tilt w') = 0 ->
     row_idx w' = 1 /\ Ray (here (row_start w')) (row_tilt w') = ray_out (cross_at e1 f1) e2 f2).
  { intros w' FO BO U D. destruct (leave idx _ wl n e0 f0 e1 f1 e2 f2 ND IN PA L3 w2 w') as (TI & IX); auto; [congruence|]. split; auto. rewrite TI. unfold ray_out, flat_ray. f_equal.
    destruct FO as (-> & _). rewrite TI. clear - EW2. destruct (row_end w2) as [x y z w]. unfold here, vset_w, pt in EW2. cbn [vx vy vz] in EW2. injection EW2 as -> -> ->.
    unfold here, vset_w, vadd, vscale, pt; cbn [vx vy vz vw]. f_equal; ring. }
  destruct (advance asort AS _ _ _ _ _ _ i 1%nat w2 L3 PRO T J2) as (w3 & J3 & FO3 & BO3 & LG3 & WL3); auto.
  { destruct FO2 as (_ & ->). rewrite G1, EL. discriminate. }
  { rewrite (proj1 (proj2 P3)). discriminate. }
  { intros w' FO BO U D. destruct (NX2 w' FO BO U D) as (_ & ->). eauto. }
  destruct (NX2 w3 FO3 BO3) as (X3 & _); [apply LG3|apply LG3|].
  destruct (prism_parts _ _ _ _ ER) as (p1 & p2 & p3 & SI & Q1 & Q2 & Q3).
  assert (EQ : p2 = L2 /\ p3 = L3).
  { rewrite SI in F2, F3. destruct Q1 as (_ & _ & W1 & _), Q2 as (_ & _ & W2 & _), Q3 as (_ & _ & W3 & _).
    assert (M12 : mmul (lift 2) mid <> left_place 2) by (intro X; apply (f_equal (fun m => vx (mapply m (V4 1 0 0 0)))) in X; rewrite mmul_mid_r in X; unfold lift in X; rewrite mapply_mmove, left_apply in X; cbn [vx] in X; lra).
    assert (M13 : mmul (lift 2) mid <> right_place 2) by (intro X; apply (f_equal (fun m => vx (mapply m (V4 1 0 0 0)))) in X; rewrite mmul_mid_r in X; unfold lift in X; rewrite mapply_mmove, right_apply in X; cbn [vx] in X; lra).
    assert (M23 : left_place 2 <> right_place 2) by (intro X; apply (f_equal (fun m => vz (mapply m (V4 1 0 0 0)))) in X; rewrite left_apply, right_apply in X; cbn [vz] in X; lra).
    destruct P2 as (_ & _ & V2 & _), P3 as (_ & _ & V3 & _). split.
    - destruct F2 as [<- | [<- | [<- | []]]]; [congruence|reflexivity|congruence].
    - destruct F3 as [<- | [<- | [<- | []]]]; [congruence|congruence|reflexivity]. }
  destruct EQ as (-> & ->).
  exists w1, w2, w3. split.
  - exists (colours e0 f0 wls), h, t, comps, 22%nat, t', s, i, 0%nat. eexists. do 2 (split; [eassumption|]). split; [left; reflexivity|].
    split; [apply moved_mid, surfaces_ok; exact TO|]. split; [reflexivity|]. do 3 (split; [assumption|]).
    exists p1, L2, L3. split; [exact SI|]. rewrite !mid_at. split; [|split; [|split; [exact X1|]]].
    + split; [exact RS1|]. exists (pt (- (1 / 2)) 0 0). rewrite mid_at. split; [|exact EW1]. exists 1, 0. unfold off_the_base. rewrite Rabs_R0. split; [lra|]. split; [lra|]. f_equal; field.
    + rewrite D1. unfold vdot, out_left; cbn [vx vy vz vw]. lra.
    + split; [exact RS2|]. exists (pt (cross_at e1 f1) 0 (sqrt 3 * (1 / 2 - cross_at e1 f1))). rewrite mid_at. split; [|exact EW2]. exists (2 - 2 * cross_at e1 f1), 0. unfold off_the_base. rewrite Rabs_R0. split; [lra|]. split; [lra|]. f_equal; field.
  - auto.
Qed.
