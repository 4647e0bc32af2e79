(** * RodExamples: a ray through a rod of glass *)
From Coq Require Import Reals List Bool ZArith Lra Lia Psatz.
Import ListNotations.
From Verif Require Import XR XRFacts Arr Lin LinFacts Ops OpsFacts SpecOptics Prim Csg Surf SpecGeom SpecTree SpecNormal CsgProps PrimFacts2 SurfFacts TreeFacts World SpecWorld Tracer SpecTrace
  TraceFacts3 TraceFacts5 TraceFacts6 TraceFacts7 TraceFacts8 TraceFacts9 TraceProps SpecCrossing Crossing CrossingProps CrossingExamples MirrorExamples PrismLaw PrismFacts PrismProps PrismExamples2 PrismExamples3 MediumExamples
  SpecComponents SpecEdges SpecMotion SpecSymmetry ImageExamples SpecSkew SkewExamples BallFacts BallExamples SpecRod RodFacts RodProps.
Open Scope R_scope.

(** the first of two hits, when the outer ball is further off *)
Lemma chord_first : forall asort, argsort_ok asort -> forall g1 b1 g2 b2 m2, leaf_as g2 (PSphere 20) m2 ->
  forall x y z a b c p q t, a * a + b * b + c * c = 1 -> surf_hits g1 (line x y z a b c) = [Fin p; Fin q] -> p < q -> 0 < t -> (t = p \/ t = q /\ p <= 0) ->
  x * x + y * y + z * z < 400 -> (x + t * a) * (x + t * a) + (y + t * b) * (y + t * b) + (z + t * c) * (z + t * c) < 400 ->
  first_hit asort [Leaf g1 b1; Leaf g2 b2] (line x y z a b c) t (s_id g1).
Proof.
  intros asort AS g1 b1 g2 b2 m2 L2 x y z a b c p q t N S1 PQ TP TT IN IT. set (h := a * x + b * y + c * z).
  assert (DD : 0 < h * h - (x * x + y * y + z * z - 20 * 20)) by nra.
  pose proof (ball_chord g2 20 _ x y z a b c L2 ltac:(lra) N DD) as S2. fold h in S2. set (D2 := h * h - (x * x + y * y + z * z - 20 * 20)) in *.
  pose proof (sqrt_lt_R0 D2 DD) as SP2. pose proof (sqrt_sqrt D2 ltac:(lra)) as SS2. set (s2 := sqrt D2) in *.
  assert (NEG : - h - s2 < 0) by (unfold D2 in *; nra).
  assert (FAR : t < - h + s2).
  { assert (X : t * t + 2 * t * h + (x * x + y * y + z * z) < 400).
    { replace (t * t + 2 * t * h + (x * x + y * y + z * z)) with ((x + t * a) * (x + t * a) + (y + t * b) * (y + t * b) + (z + t * c) * (z + t * c)); [exact IT|].
      transitivity (t * t * (a * a + b * b + c * c) + 2 * t * h + (x * x + y * y + z * z)); [unfold h; ring|rewrite N; ring]. }
    assert (Y : (t + h) * (t + h) < s2 * s2) by (rewrite SS2; unfold D2; lra). nra. }
  exists 0%nat, (match Rle_dec p 0 with left _ => 1%nat | _ => 0%nat end). split.
  - exists (Leaf g1 b1). cbn [nth_error shape_intersect fst snd]. rewrite S1. destruct (Rle_dec p 0) as [Q|Q]; cbn; (split; [reflexivity|]); (split; [|split; [reflexivity|lra]]); f_equal; f_equal; destruct TT as [->|(-> & TT)]; lra.
  - intros i j u sid (sh & I & K & S & U). destruct i as [|[|i]]; cbn in I; [injection I as <-|injection I as <-|destruct i; discriminate]; cbn [shape_intersect fst snd] in K, S.
    + rewrite S1 in K. destruct j as [|[|j]]; cbn in K; [injection K as <-|injection K as <-|destruct j; discriminate].
      * destruct (Rle_dec p 0) as [Q|Q]; [lra|]. right. split; [destruct TT as [->|(-> & TT)]; lra|]. right; split; auto.
      * destruct (Rle_dec p 0) as [Q|Q]; [right; split; [destruct TT as [->|(-> & TT)]; lra|right; split; auto]|left; destruct TT as [->|(-> & TT)]; lra].
    + left. rewrite S2 in K. destruct j as [|[|j]]; cbn in K; [injection K as <-|injection K as <-|destruct j; discriminate]; [lra|lra].
Qed.
(** the hits on the rod of a ray in a plane of its axis *)
Lemma rod_chord : forall g m y z b c p q, leaf_as g (PCylinder 3 (-8) 8 true) m -> / 100 < b * b -> / 100 < Rabs c -> p < q ->
  (forall t, - 3 <= y + t * b <= 3 /\ -8 <= z + t * c <= 8 <-> p <= t <= q) -> surf_hits g (line 0 y z 0 b c) = [Fin p; Fin q].
Proof.
  intros g m y z b c p q L B C PQ H. apply chord_is.
  - apply L.
  - split; [reflexivity|]. split; [reflexivity|]. intros (X & Y & Z). cbn in X, Y, Z. rewrite Y in B. lra.
  - rewrite (leaf_obj _ _ _ L). destruct L as (_ & -> & _). split; [unfold ray_map, line; rewrite !mapply_mid; cbn; unfold clear, atol; split; right; [rewrite Rabs_right|]; lra|cbn; lra].
  - lra.
  - intro t. rewrite line_at, (leaf_placed _ _ _ _ L) by reflexivity. cbn [solid vx vy vz]. rewrite <- H. split; intros (P & Q); (split; [|exact Q]); nra.
Qed.
Lemma leaf_rod : forall g m, leaf_as g (PCylinder 3 (-8) 8 true) m -> rod g (pt 0 0 0) (V4 0 0 1 0) 3 (-8) 8.
Proof.
  intros g m (OK & P & M & W & K). unfold rod. rewrite W, !mapply_mid. split; [lra|]. split; [exact P|]. split; [apply id_iso|]. split; [reflexivity|]. split; [reflexivity|exact K].
Qed.
Lemma mirrored_is : forall v d n, mirrored v d n -> d = vsub v (vscale (2 * vdot v n) n).
Proof.
  intros v d n (M1 & M2). unfold tangential in M2. rewrite M1 in M2. set (D := vdot v n) in *. clearbody D. destruct v as [a1 a2 a3 a4], d as [b1 b2 b3 b4], n as [n1 n2 n3 n4].
  unfold vscale, vsub, vadd, vopp, vscale in *; cbn [vx vy vz vw] in *. injection M2 as E1 E2 E3 E4. f_equal; lra.
Qed.

Definition rod_lamp : list col := [Col (line 0 (- (24 / 5)) (- (47 / 5)) 0 (24 / 25) (7 / 25)) 0 100 1 1 0].
Notation axis0 := (V4 0 0 1 0).
Notation mid0 := (pt 0 0 0).
Lemma off_is : forall w x y z, here (row_end w) = V4 x y z 1 -> off_axis mid0 axis0 (here (row_end w)) = V4 x y 0 0 /\ height mid0 axis0 (here (row_end w)) = z.
Proof.
  intros w x y z ->. assert (H : height mid0 axis0 (V4 x y z 1) = z) by (unfold height, pt, vdot, vsub, vopp, vadd, vscale; cbn; ring). split; [|exact H].
  unfold off_axis. rewrite H. unfold pt, vsub, vopp, vadd, vscale; cbn. f_equal; ring.
Qed.
Lemma side_is : forall f w y z, row_surf w = s_id f -> here (row_end w) = V4 0 y z 1 -> y * y = 9 -> -4 <= z <= 4 -> ends_on_side f mid0 axis0 3 (-8) 8 w.
Proof.
  intros f w y z SU E Y Z. destruct (off_is w _ _ _ E) as (O & H). unfold ends_on_side. rewrite O, H. split; [exact SU|]. split; [unfold vdot; cbn; lra|].
  unfold near. split; intro X; revert X; [replace (Rabs (-8)) with 8 by (rewrite Rabs_left; lra); rewrite Rabs_right by lra|rewrite (Rabs_right 8) by lra; rewrite Rabs_left by lra]; lra.
Qed.
Lemma next_start : forall w w' x y z a b c, follows w w' -> here (row_end w) = V4 x y z 1 -> row_tilt w' = V4 a b c 0 ->
  Ray (here (row_start w')) (row_tilt w') = line (x + ray_offset_value * a) (y + ray_offset_value * b) (z + ray_offset_value * c) a b c.
Proof.
  intros w w' x y z a b c (ST & _) E T. unfold line. rewrite ST, T. f_equal. revert E. destruct (row_end w) as [e1 e2 e3 e4]. unfold here, vset_w, vadd, vscale; cbn [vx vy vz vw]. intro E. injection E as -> -> ->. reflexivity.
Qed.
Lemma near_mid : forall w x y z, here (row_end w) = V4 x y z 1 -> x * x + y * y + z * z <= 81 -> vx (row_end w) * vx (row_end w) + vy (row_end w) * vy (row_end w) + vz (row_end w) * vz (row_end w) <= 81.
Proof. intros w x y z E. destruct (row_end w) as [e1 e2 e3 e4]. unfold here, vset_w in E; cbn [vx vy vz vw] in *. injection E as -> -> ->. auto. Qed.

Lemma rod_case : forall asort, argsort_ok asort -> exists h t comps t' f w0 w1 w2 v u after,
  proper (fun _ _ => rod_lamp) h t comps /\ trace asort h (fun _ _ => rod_lamp) 22 t = TOk t' /\
  rows_with_id 0 (f_rows (get_results t')) = [] ++ (w0 :: [w1; w2] ++ [v; u]) ++ after /\ In f (flat_map surface_ids comps) /\ rod f mid0 axis0 3 (-8) 8 /\ ~ near (-8) 8 /\
  s_mat f = Refractor (fun _ => Fin (8 / 5)) /\ ends_on_base f mid0 axis0 3 (-8) w0 /\ row_idx w0 = 1 /\ axial axis0 w0 = 7 / 25 /\
  Forall (ends_on_side f mid0 axis0 3 (-8) 8) [w1; w2] /\ ends_on_top f mid0 axis0 8 v /\ held f mid0 axis0 3 w1.
Proof.
  intros asort AS.
  destruct (two_scene asort AS (PCylinder 3 (-8) 8 true) (Refractor (fun _ => Fin (8 / 5))) (PSphere 20) Absorber rod_lamp) as (h & g1 & b1 & g2 & b2 & t & L1 & L2 & B1 & B2 & NW & PRO & SR & LIM); cbn [prim_ok capped optical]; auto; try lra; try discriminate.
  { intros wl _. exists (8 / 5). split; [reflexivity|lra]. }
  { intros c [<- | []]. split; [|reflexivity]. unfold ray_ok, line; cbn. do 2 (split; [reflexivity|]). split; [left|lra]. unfold unit, vdot; cbn. field. }
  set (comps := [Leaf g1 b1; Leaf g2 b2]) in *.
  destruct (proper_trace_ok asort AS _ _ _ _ 22 PRO) as (t' & T); [rewrite LIM; cbn; lia|].
  assert (H0 : first_hit asort comps (line 0 (- (24 / 5)) (- (47 / 5)) 0 (24 / 25) (7 / 25)) 5 (s_id g1)).
  { apply (chord_first asort AS g1 b1 g2 b2 _ L2 _ _ _ _ _ _ 5 (65 / 8)); try lra. apply (rod_chord g1 _ _ _ _ _ _ _ L1); try lra; [rewrite Rabs_right; lra|]. intro s. lra. }
  destruct (start_row asort AS h t comps t' _ _ _ _ _ _ _ 5 (s_id g1) PRO SR T ltac:(lra) H0) as (w0 & rs & ER & RS & EE & TI & IX & WL & GE).
  assert (E0 : here (row_end w0) = V4 0 0 (-8) 1) by (rewrite EE; f_equal; lra). clear EE.
  assert (J0 : nth_error (rows_with_id 0 (f_rows (get_results t'))) 0 = Some w0) by (rewrite ER; reflexivity).
  pose proof PRO as ((_ & _ & ND) & _ & _ & _ & PO). pose proof (leaf_rod g1 _ L1) as RD.
  assert (I1 : In g1 (flat_map surface_ids comps)) by (left; reflexivity). destruct (PO g1 I1) as (_ & _ & IV & _).
  assert (MA : s_mat g1 = Refractor (fun _ => Fin (8 / 5))) by apply L1. assert (NA : s_mat g1 <> Absorber) by (rewrite MA; discriminate).
  destruct (off_is _ _ _ _ E0) as (O0 & HT0). assert (NLH : ~ near (-8) 8) by (unfold near; rewrite (Rabs_right 8), Rabs_left by lra; lra).
  assert (OFF : 0 < ray_offset_value < 1 / 100) by (unfold ray_offset_value; lra).
  destruct (advance asort AS _ _ _ _ _ _ 0%nat 0%nat w0 g1 PRO T J0) as (w1 & J1 & FO1 & BO1 & LG1 & WL1); auto.
  { rewrite GE, LIM. discriminate. }
  { intros w' FO _ U D. apply (caught asort AS g1 b1 g2 b2 _ L2 w0 w' FO U D). apply (near_mid _ _ _ _ E0). lra. }
  (* in *)
  destruct (rod_cap_normal g1 _ _ _ _ _ (here (row_end w0)) RD IV eq_refl NLH) as (WN0 & _). specialize (WN0 HT0).
  destruct (bounce_at _ g1 w0 w1 _ (fun _ => Fin (8 / 5)) ND I1 RS WN0 MA BO1) as (UN0 & n2 & X2 & RF & _). injection X2 as <-. pose proof LG1 as (U1 & D1 & _).
  assert (U0 : unit (row_tilt w0)) by (rewrite TI; unfold unit, vdot; cbn; field).
  assert (DD : vdot (row_tilt w0) (vscale (-1) axis0) = - (7 / 25)) by (rewrite TI; unfold vdot, vscale; cbn; field).
  cbv zeta in RF. unfold next_index in RF. rewrite DD in RF. destruct (Rlt_dec 0 (- (7 / 25))) as [Y|_]; [lra|]. rewrite IX in RF.
  pose proof (sine_sq _ _ U0 UN0) as S0. rewrite DD in S0. assert (SP : 0 <= vnorm (tangential (row_tilt w0) (vscale (-1) axis0))) by apply sqrt_pos.
  destruct RF as (X1 & SN & A1); [nra|]. pose proof (snell_sines _ _ _ _ _ U0 U1 UN0 SN) as Q. rewrite DD in Q.
  assert (Q1 : vdot (row_tilt w1) (vscale (-1) axis0) = - (4 / 5)) by nra.
  assert (T1 : row_tilt w1 = V4 0 (3 / 5) (4 / 5) 0).
  { pose proof (snell_solve _ _ _ _ _ SN) as S1. rewrite DD, Q1, TI in S1. revert S1. destruct (row_tilt w1) as [a b c d]. unfold vscale, vadd; cbn [vx vy vz vw]. intro E. injection E as F1 F2 F3 F4. f_equal; lra. }
  clear Q1 Q SN A1 S0 SP DD UN0 WN0.
  pose proof (next_start _ _ _ _ _ _ _ _ FO1 E0 T1) as R1. set (e := ray_offset_value) in *.
  assert (H1 : first_hit asort comps (line (0 + e * 0) (0 + e * (3 / 5)) (-8 + e * (4 / 5)) 0 (3 / 5) (4 / 5)) (5 - e) (s_id g1)).
  { replace (0 + e * 0) with 0 by ring. apply (chord_first asort AS g1 b1 g2 b2 _ L2 _ _ _ _ _ _ (- e) (5 - e)); try lra; try nra. apply (rod_chord g1 _ _ _ _ _ _ _ L1); try lra; [rewrite Rabs_right; lra|]. intro s. lra. }
  destruct (leg_end _ _ _ _ _ _ LG1 R1 H1) as (RS1 & E1). rewrite line_at in E1.
  assert (E1' : here (row_end w1) = V4 0 3 (-4) 1) by (rewrite E1; f_equal; lra). clear E1.
  pose proof (side_is g1 w1 _ _ RS1 E1' ltac:(lra) ltac:(lra)) as ES1. destruct (off_is _ _ _ _ E1') as (O1 & HT1).
  assert (HE1 : held g1 mid0 axis0 3 w1).
  { right. split; [eauto|]. assert (RA : radial mid0 axis0 w1 = 9 / 5) by (unfold radial; rewrite T1, O1; unfold vdot; cbn; field). rewrite RA, X1. split; [lra|].
    replace (1 - 9 / 5 / 3 * (9 / 5 / 3)) with (4 / 5 * (4 / 5)) by field. rewrite sqrt_square by lra. lra. }
  (* along the side *)
  assert (G1 : row_gen w1 = 1%nat) by (destruct FO1 as (_ & ->); rewrite GE; reflexivity).
  destruct (advance asort AS _ _ _ _ _ _ 0%nat 1%nat w1 g1 PRO T J1) as (w2 & J2 & FO2 & BO2 & LG2 & WL2); auto.
  { rewrite G1, LIM. discriminate. }
  { intros w' FO _ U D. apply (caught asort AS g1 b1 g2 b2 _ L2 w1 w' FO U D). apply (near_mid _ _ _ _ E1'). lra. }
  assert (STEP : forall w w', ends_on_side g1 mid0 axis0 3 (-8) 8 w -> held g1 mid0 axis0 3 w -> unit (row_tilt w) -> SpecTrace.bounce (flat_map surface_ids comps) w w' ->
    row_tilt w' = vsub (row_tilt w) (vscale (2 * vdot (row_tilt w) (vscale (/ 3) (off_axis mid0 axis0 (here (row_end w))))) (vscale (/ 3) (off_axis mid0 axis0 (here (row_end w)))))).
  { intros w w' ES HE U BO. destruct (side_row g1 mid0 axis0 3 (-8) 8 IV RD w ES) as (WN & UN & PE & DN). apply mirrored_is.
    destruct HE as [MA' | (_ & RA & SN)]; [congruence|]. destruct (bounce_at _ g1 w w' _ (fun _ => Fin (8 / 5)) ND I1 (proj1 ES) WN MA BO) as (_ & n2 & X2 & _ & TI'). apply TI'. unfold next_index, world_index. rewrite DN.
    assert (DP : 0 < radial mid0 axis0 w / 3) by lra. destruct (Rlt_dec 0 (radial mid0 axis0 w / 3)) as [_|Y]; [|contradiction].
    pose proof (sine_sq _ _ U UN) as S1. rewrite DN in S1. 
    replace (vnorm (tangential (row_tilt w) (vscale (/ 3) (off_axis mid0 axis0 (here (row_end w)))))) with (sqrt (1 - radial mid0 axis0 w / 3 * (radial mid0 axis0 w / 3))); [exact SN|].
    rewrite <- S1, sqrt_square; auto. apply sqrt_pos. }
  assert (T2 : row_tilt w2 = V4 0 (- (3 / 5)) (4 / 5) 0).
  { rewrite (STEP w1 w2 ES1 HE1 (proj1 LG1) BO2), T1, O1. unfold vsub, vopp, vadd, vscale, vdot; cbn. f_equal; field. }
  pose proof (next_start _ _ _ _ _ _ _ _ FO2 E1' T2) as R2. fold e in R2.
  assert (H2 : first_hit asort comps (line (0 + e * 0) (3 + e * (- (3 / 5))) (-4 + e * (4 / 5)) 0 (- (3 / 5)) (4 / 5)) (10 - e) (s_id g1)).
  { replace (0 + e * 0) with 0 by ring. apply (chord_first asort AS g1 b1 g2 b2 _ L2 _ _ _ _ _ _ (- e) (10 - e)); try lra; try nra. apply (rod_chord g1 _ _ _ _ _ _ _ L1); try lra; [rewrite Rabs_right; lra|]. intro s. lra. }
  destruct (leg_end _ _ _ _ _ _ LG2 R2 H2) as (RS2 & E2). rewrite line_at in E2.
  assert (E2' : here (row_end w2) = V4 0 (-3) 4 1) by (rewrite E2; f_equal; lra). clear E2.
  pose proof (side_is g1 w2 _ _ RS2 E2' ltac:(lra) ltac:(lra)) as ES2. destruct (off_is _ _ _ _ E2') as (O2 & HT2).
  destruct (held_next asort comps g1 mid0 axis0 3 (-8) 8 ND I1 IV RD w1 w2 ES1 ES2 HE1 (proj1 LG1) BO2 FO2 LG2) as (HE2 & X2 & _).
  assert (G2 : row_gen w2 = 2%nat) by (destruct FO2 as (_ & ->); rewrite G1; reflexivity).
  destruct (advance asort AS _ _ _ _ _ _ 0%nat 2%nat w2 g1 PRO T J2) as (v & J3 & FO3 & BO3 & LG3 & WL3); auto.
  { rewrite G2, LIM. discriminate. }
  { intros w' FO _ U D. apply (caught asort AS g1 b1 g2 b2 _ L2 w2 w' FO U D). apply (near_mid _ _ _ _ E2'). lra. }
  assert (T3 : row_tilt v = V4 0 (3 / 5) (4 / 5) 0).
  { rewrite (STEP w2 v ES2 HE2 (proj1 LG2) BO3), T2, O2. unfold vsub, vopp, vadd, vscale, vdot; cbn. f_equal; field. }
  pose proof (next_start _ _ _ _ _ _ _ _ FO3 E2' T3) as R3. fold e in R3.
  assert (H3 : first_hit asort comps (line (0 + e * 0) (-3 + e * (3 / 5)) (4 + e * (4 / 5)) 0 (3 / 5) (4 / 5)) (5 - e) (s_id g1)).
  { replace (0 + e * 0) with 0 by ring. apply (chord_first asort AS g1 b1 g2 b2 _ L2 _ _ _ _ _ _ (- e) (5 - e)); try lra; try nra. apply (rod_chord g1 _ _ _ _ _ _ _ L1); try lra; [rewrite Rabs_right; lra|]. intro s. lra. }
  destruct (leg_end _ _ _ _ _ _ LG3 R3 H3) as (RS3 & E3). rewrite line_at in E3.
  assert (E3' : here (row_end v) = V4 0 0 8 1) by (rewrite E3; f_equal; lra). clear E3. destruct (off_is _ _ _ _ E3') as (_ & HT3).
  assert (G3 : row_gen v = 3%nat) by (destruct FO3 as (_ & ->); rewrite G2; reflexivity).
  destruct (advance asort AS _ _ _ _ _ _ 0%nat 3%nat v g1 PRO T J3) as (u & J4 & _); auto.
  { rewrite G3, LIM. discriminate. }
  { intros w' FO _ U D. apply (caught asort AS g1 b1 g2 b2 _ L2 v w' FO U D). apply (near_mid _ _ _ _ E3'). lra. }
  rewrite ER in J1, J2, J3, J4. destruct rs as [|r1 [|r2 [|r3 [|r4 rs]]]]; try discriminate. injection J1 as ->. injection J2 as ->. injection J3 as ->. injection J4 as ->.
  exists h, t, comps, t', g1, w0, w1, w2, v, u, rs. split; [exact PRO|]. split; [exact T|]. split; [exact ER|]. split; [exact I1|]. split; [exact RD|]. split; [exact NLH|]. split; [exact MA|].
  split; [split; [exact RS|]; split; [rewrite O0; unfold vdot; cbn; lra|exact HT0]|]. split; [exact IX|]. split; [unfold axial; rewrite TI; unfold vdot; cbn; field|].
  split; [constructor; [exact ES1|constructor; [exact ES2|constructor]]|]. split; [split; [exact RS3|exact HT3]|exact HE1].
Qed.
