(** * BlockExamples: a ray through a block of glass *)
From Coq Require Import Reals List Bool ZArith Lra Lia Psatz.
Import ListNotations.
From Verif Require Import XR XRFacts Arr Lin LinFacts Ops OpsFacts SpecOptics Prim Csg Surf SpecGeom SpecTree SpecNormal CsgProps PrimFacts2 SurfFacts TreeFacts World SpecWorld Tracer SpecTrace
  TraceFacts3 TraceFacts5 TraceFacts6 TraceFacts7 TraceFacts8 TraceFacts9 TraceProps SpecCrossing Crossing CrossingProps CrossingExamples MirrorExamples PrismLaw PrismFacts PrismProps PrismExamples2 PrismExamples3 MediumExamples
  SpecComponents SpecEdges SpecMotion SpecSymmetry ImageExamples SpecSkew SkewExamples BallFacts BallExamples SpecRod RodFacts RodProps RodExamples SpecBlock BlockProps.
Open Scope R_scope.


Definition lows (a : axis) : R := match a with AlongZ => -8 | _ => -3 end.
Definition highs (a : axis) : R := match a with AlongZ => 8 | _ => 3 end.
Notation bar := (PCube (-3, -3, -8) (3, 3, 8)).
(** the hits on the block of a ray in a plane of its axis *)
Lemma block_chord : forall g m y z b c p q, leaf_as g bar m -> / 100 < Rabs b -> / 100 < Rabs c -> p < q ->
  (forall t, - 3 <= y + t * b <= 3 /\ -8 <= z + t * c <= 8 <-> p <= t <= q) -> surf_hits g (line 0 y z 0 b c) = [Fin p; Fin q].
Proof.
  intros g m y z b c p q L B C PQ H. apply chord_is.
  - apply L.
  - split; [reflexivity|]. split; [reflexivity|]. intros (X & Y & Z). cbn in X, Y, Z. rewrite Y, Rabs_R0 in B. lra.
  - rewrite (leaf_obj _ _ _ L). destruct L as (_ & -> & _). split; [unfold ray_map, line; rewrite !mapply_mid; cbn; unfold clear, atol; split; [left; reflexivity|]; split; right; lra|cbn; auto; try lra].
  - lra.
  - intro t. rewrite line_at, (leaf_placed _ _ _ _ L) by reflexivity. cbn [solid vx vy vz]. rewrite <- H. unfold between. rewrite !Rmin_left, !Rmax_right by lra. split; [intros (P1 & P2 & P3); split; assumption|intros (P2 & P3); split; [lra|split; assumption]].
Qed.
Lemma leaf_block : forall g m, leaf_as g bar m -> block g lows highs.
Proof.
  intros g m (OK & P & M & W & K). unfold block. rewrite W. split; [|split; [exact P|]; split; [apply id_iso|exact K]].
  intros a. split; [destruct a; cbn; lra|]. destruct a; cbn; unfold near; rewrite Rabs_left, Rabs_right by lra; lra.
Qed.
Lemma place_is : forall f m w x y z a, leaf_as f bar m -> here (row_end w) = V4 x y z 1 -> place f a w = coord a (V4 x y z 1).
Proof. intros f m w x y z a L E. unfold place. rewrite (leaf_obj _ _ _ L), mapply_mid, E. reflexivity. Qed.
Lemma part_is : forall f m w a, leaf_as f bar m -> part f a w = vdot (row_tilt w) (arrow a).
Proof. intros f m w a (_ & _ & _ & W & _). unfold part. rewrite W, mapply_mid. reflexivity. Qed.
Lemma pair_is : forall f m w x y z a, leaf_as f bar m -> row_surf w = s_id f -> here (row_end w) = V4 x y z 1 ->
  (coord a (V4 x y z 1) = lows a \/ coord a (V4 x y z 1) = highs a) -> (forall b, b <> a -> -5 <= coord b (V4 x y z 1) <= 5 /\ (b <> AlongZ -> -2 <= coord b (V4 x y z 1) <= 2)) -> ends_on_pair f lows highs a w.
Proof.
  intros f m w x y z a L SU E ON AW. split; [exact SU|]. rewrite !(place_is f m w x y z _ L E). split; [exact ON|]. intros b NE. rewrite !(place_is f m w x y z _ L E). destruct (AW b NE) as (A1 & A2).
  unfold near. destruct b; cbn [lows highs]; try (specialize (A2 ltac:(discriminate))); (split; unfold Rabs; repeat destruct (Rcase_abs _); lra).
Qed.
Lemma block_case : forall asort, argsort_ok asort -> exists h t comps t' f w0 w1 w2 v u after,
  proper (fun _ _ => rod_lamp) h t comps /\ trace asort h (fun _ _ => rod_lamp) 22 t = TOk t' /\
  rows_with_id 0 (f_rows (get_results t')) = [] ++ (w0 :: [w1; w2] ++ [v; u]) ++ after /\ In f (flat_map surface_ids comps) /\ block f lows highs /\
  s_mat f = Refractor (fun _ => Fin (8 / 5)) /\ enters f lows highs AlongZ w0 /\ row_idx w0 = 1 /\ part f AlongY w0 = 24 / 25 /\
  Forall (fun w => row_idx w = 8 / 5 /\ exists b, ends_on_pair f lows highs b w) [w1; w2; v].
Proof.
  intros asort AS.
  destruct (two_scene asort AS bar (Refractor (fun _ => Fin (8 / 5))) (PSphere 20) Absorber rod_lamp) as (h & g1 & b1 & g2 & b2 & t & L1 & L2 & B1 & B2 & NW & PRO & SR & LIM); cbn [prim_ok capped optical]; auto; try lra; try discriminate.
  { intros wl _. exists (8 / 5). split; [reflexivity|lra]. }
  { intros c [<- | []]. split; [|reflexivity]. unfold ray_ok, line; cbn. do 2 (split; [reflexivity|]). split; [left|lra]. unfold unit, vdot; cbn. field. }
  set (comps := [Leaf g1 b1; Leaf g2 b2]) in *.
  destruct (proper_trace_ok asort AS _ _ _ _ 22 PRO) as (t' & T); [rewrite LIM; cbn; lia|].
  assert (H0 : first_hit asort comps (line 0 (- (24 / 5)) (- (47 / 5)) 0 (24 / 25) (7 / 25)) 5 (s_id g1)).
  { apply (chord_first asort AS g1 b1 g2 b2 _ L2 _ _ _ _ _ _ 5 (65 / 8)); try lra. apply (block_chord g1 _ _ _ _ _ _ _ L1); try lra; try (rewrite Rabs_right by lra; lra); try (rewrite Rabs_left by lra; lra); intro s; lra. }
  destruct (start_row asort AS h t comps t' _ _ _ _ _ _ _ 5 (s_id g1) PRO SR T ltac:(lra) H0) as (w0 & rs & ER & RS & EE & TI & IX & WL & GE).
  assert (E0 : here (row_end w0) = V4 0 0 (-8) 1) by (rewrite EE; f_equal; lra). clear EE.
  assert (J0 : nth_error (rows_with_id 0 (f_rows (get_results t'))) 0 = Some w0) by (rewrite ER; reflexivity).
  pose proof PRO as ((_ & _ & ND) & _ & _ & _ & PO). pose proof (leaf_block g1 _ L1) as RD.
  assert (I1 : In g1 (flat_map surface_ids comps)) by (left; reflexivity). destruct (PO g1 I1) as (_ & _ & IV & _).
  assert (MA : s_mat g1 = Refractor (fun _ => Fin (8 / 5))) by apply L1. assert (NA : s_mat g1 <> Absorber) by (rewrite MA; discriminate).
  assert (EP0 : ends_on_pair g1 lows highs AlongZ w0) by (apply (pair_is g1 _ w0 _ _ _ _ L1 RS E0); [left; reflexivity|intros [] NB; cbn; try congruence; lra]).
  assert (OFF : 0 < ray_offset_value < 1 / 100) by (unfold ray_offset_value; lra).
  destruct (advance asort AS _ _ _ _ _ _ 0%nat 0%nat w0 g1 PRO T J0) as (w1 & J1 & FO1 & BO1 & LG1 & WL1); auto.
  { rewrite GE, LIM. discriminate. }
  { intros w' FO _ U D. apply (caught asort AS g1 b1 g2 b2 _ L2 w0 w' FO U D). apply (near_mid _ _ _ _ E0). lra. }
  (* in *)
  assert (WD : s_world g1 = mid) by apply L1.
  assert (WN0 : world_normal g1 (here (row_end w0)) = Some (vscale (-1) axis0)).
  { rewrite (face_normal g1 lows highs IV RD AlongZ w0 EP0), WD, mapply_mid. unfold sense. rewrite (place_is g1 _ w0 _ _ _ AlongZ L1 E0). cbn [coord highs arrow vz]. destruct (Req_EM_T (-8) 8); [lra|reflexivity]. }
  destruct (bounce_at _ g1 w0 w1 _ (fun _ => Fin (8 / 5)) ND I1 RS WN0 MA BO1) as (UN0 & n2 & X2 & RF & _). injection X2 as <-. pose proof LG1 as (U1 & D1 & _).
  assert (U0 : unit (row_tilt w0)) by (rewrite TI; unfold unit, vdot; cbn; field).
  assert (DD : vdot (row_tilt w0) (vscale (-1) axis0) = - (7 / 25)) by (rewrite TI; unfold vdot, vscale; cbn; field).
  cbv zeta in RF. unfold next_index in RF. rewrite DD in RF. destruct (Rlt_dec 0 (- (7 / 25))) as [Y|_]; [lra|]. rewrite IX in RF.
  pose proof (sine_sq _ _ U0 UN0) as S0. rewrite DD in S0. assert (SP : 0 <= vnorm (tangential (row_tilt w0) (vscale (-1) axis0))) by apply sqrt_pos.
  destruct RF as (X1 & SN & A1); [nra|]. pose proof (snell_sines _ _ _ _ _ U0 U1 UN0 SN) as Q. rewrite DD in Q.
  assert (Q1 : vdot (row_tilt w1) (vscale (-1) axis0) = - (4 / 5)) by nra.
  assert (T1 : row_tilt w1 = V4 0 (3 / 5) (4 / 5) 0).
  { pose proof (snell_solve _ _ _ _ _ SN) as S1. rewrite DD, Q1, TI in S1. revert S1. destruct (row_tilt w1) as [a b c d]. unfold vscale, vadd; cbn [vx vy vz vw]. intro E. injection E as F1 F2 F3 F4. f_equal; lra. }
  clear Q1 Q SN A1 S0 SP DD UN0 WN0.
  pose proof (next_start _ _ _ _ _ _ _ _ FO1 E0 T1) as R1. set (e := ray_offset_value) in *.
  assert (H1 : first_hit asort comps (line (0 + e * 0) (0 + e * (3 / 5)) (-8 + e * (4 / 5)) 0 (3 / 5) (4 / 5)) (5 - e) (s_id g1)).
  { replace (0 + e * 0) with 0 by ring. apply (chord_first asort AS g1 b1 g2 b2 _ L2 _ _ _ _ _ _ (- e) (5 - e)); try lra; try nra. apply (block_chord g1 _ _ _ _ _ _ _ L1); try lra; try (rewrite Rabs_right by lra; lra); try (rewrite Rabs_left by lra; lra); intro s; lra. }
  destruct (leg_end _ _ _ _ _ _ LG1 R1 H1) as (RS1 & E1). rewrite line_at in E1.
  assert (E1' : here (row_end w1) = V4 0 3 (-4) 1) by (rewrite E1; f_equal; lra). clear E1.
  assert (ES1 : ends_on_pair g1 lows highs AlongY w1) by (apply (pair_is g1 _ w1 _ _ _ _ L1 RS1 E1'); [right; reflexivity|intros [] NB; cbn; try congruence; (split; [lra|intro; try congruence; lra])]).
  (* along the side *)
  assert (G1 : row_gen w1 = 1%nat) by (destruct FO1 as (_ & ->); rewrite GE; reflexivity).
  destruct (advance asort AS _ _ _ _ _ _ 0%nat 1%nat w1 g1 PRO T J1) as (w2 & J2 & FO2 & BO2 & LG2 & WL2); auto.
  { rewrite G1, LIM. discriminate. }
  { intros w' FO _ U D. apply (caught asort AS g1 b1 g2 b2 _ L2 w1 w' FO U D). apply (near_mid _ _ _ _ E1'). lra. }
  assert (STEP : forall w w' y z b cc, y * b = 9 / 5 -> y * y = 9 -> row_tilt w = V4 0 b cc 0 -> unit (row_tilt w) -> row_idx w = 8 / 5 -> here (row_end w) = V4 0 y z 1 -> ends_on_pair g1 lows highs AlongY w -> SpecTrace.bounce (flat_map surface_ids comps) w w' ->
    row_idx w' = 8 / 5 /\ row_tilt w' = V4 0 (- b) cc 0).
  { intros w w' y z b cc YB YY TW U IXW EW ES BO.
    assert (WN : world_normal g1 (here (row_end w)) = Some (V4 0 (y / 3) 0 0)).
    { rewrite (face_normal g1 lows highs IV RD AlongY w ES), WD, mapply_mid. unfold sense. rewrite (place_is g1 _ w _ _ _ AlongY L1 EW). cbn [coord highs arrow vy]. f_equal.
      destruct (Req_EM_T y 3) as [->|NY]; [unfold vscale; cbn; f_equal; lra|]. assert (y = -3) by nra. subst y. unfold vscale; cbn. f_equal; lra. }
    destruct (bounce_at _ g1 w w' _ (fun _ => Fin (8 / 5)) ND I1 (proj1 ES) WN MA BO) as (UN & n2 & X2 & _ & TI'). cbv zeta in TI'. unfold next_index, world_index in TI'.
    assert (DN : vdot (row_tilt w) (V4 0 (y / 3) 0 0) = 3 / 5) by (rewrite TW; unfold vdot; cbn; lra). rewrite DN in TI'. destruct (Rlt_dec 0 (3 / 5)) as [_|Y]; [|lra].
    pose proof (sine_sq _ _ U UN) as S1. rewrite DN in S1. assert (SP : 0 <= vnorm (tangential (row_tilt w) (V4 0 (y / 3) 0 0))) by apply sqrt_pos.
    destruct TI' as (X1' & M); [rewrite IXW; nra|]. split; [congruence|]. rewrite (mirrored_is _ _ _ M), DN, TW. unfold vsub, vopp, vadd, vscale; cbn. f_equal; try ring. nra. }
  destruct (STEP w1 w2 3 (-4) (3 / 5) (4 / 5) ltac:(lra) ltac:(lra) T1 (proj1 LG1) X1 E1' ES1 BO2) as (IX2 & T2).
  pose proof (next_start _ _ _ _ _ _ _ _ FO2 E1' T2) as R2. fold e in R2.
  assert (H2 : first_hit asort comps (line (0 + e * 0) (3 + e * (- (3 / 5))) (-4 + e * (4 / 5)) 0 (- (3 / 5)) (4 / 5)) (10 - e) (s_id g1)).
  { replace (0 + e * 0) with 0 by ring. apply (chord_first asort AS g1 b1 g2 b2 _ L2 _ _ _ _ _ _ (- e) (10 - e)); try lra; try nra. apply (block_chord g1 _ _ _ _ _ _ _ L1); try lra; try (rewrite Rabs_right by lra; lra); try (rewrite Rabs_left by lra; lra); intro s; lra. }
  destruct (leg_end _ _ _ _ _ _ LG2 R2 H2) as (RS2 & E2). rewrite line_at in E2.
  assert (E2' : here (row_end w2) = V4 0 (-3) 4 1) by (rewrite E2; f_equal; lra). clear E2.
  assert (ES2 : ends_on_pair g1 lows highs AlongY w2) by (apply (pair_is g1 _ w2 _ _ _ _ L1 RS2 E2'); [left; reflexivity|intros [] NB; cbn; try congruence; (split; [lra|intro; try congruence; lra])]).
  assert (G2 : row_gen w2 = 2%nat) by (destruct FO2 as (_ & ->); rewrite G1; reflexivity).
  destruct (advance asort AS _ _ _ _ _ _ 0%nat 2%nat w2 g1 PRO T J2) as (v & J3 & FO3 & BO3 & LG3 & WL3); auto.
  { rewrite G2, LIM. discriminate. }
  { intros w' FO _ U D. apply (caught asort AS g1 b1 g2 b2 _ L2 w2 w' FO U D). apply (near_mid _ _ _ _ E2'). lra. }
  destruct (STEP w2 v (-3) 4 (- (3 / 5)) (4 / 5) ltac:(lra) ltac:(lra) T2 (proj1 LG2) IX2 E2' ES2 BO3) as (IX3 & T3'). assert (T3 : row_tilt v = V4 0 (3 / 5) (4 / 5) 0) by (rewrite T3'; f_equal; lra).
  pose proof (next_start _ _ _ _ _ _ _ _ FO3 E2' T3) as R3. fold e in R3.
  assert (H3 : first_hit asort comps (line (0 + e * 0) (-3 + e * (3 / 5)) (4 + e * (4 / 5)) 0 (3 / 5) (4 / 5)) (5 - e) (s_id g1)).
  { replace (0 + e * 0) with 0 by ring. apply (chord_first asort AS g1 b1 g2 b2 _ L2 _ _ _ _ _ _ (- e) (5 - e)); try lra; try nra. apply (block_chord g1 _ _ _ _ _ _ _ L1); try lra; try (rewrite Rabs_right by lra; lra); try (rewrite Rabs_left by lra; lra); intro s; lra. }
  destruct (leg_end _ _ _ _ _ _ LG3 R3 H3) as (RS3 & E3). rewrite line_at in E3.
  assert (E3' : here (row_end v) = V4 0 0 8 1) by (rewrite E3; f_equal; lra). clear E3. assert (ES3 : ends_on_pair g1 lows highs AlongZ v) by (apply (pair_is g1 _ v _ _ _ _ L1 RS3 E3'); [right; reflexivity|intros [] NB; cbn; try congruence; lra]).
  assert (G3 : row_gen v = 3%nat) by (destruct FO3 as (_ & ->); rewrite G2; reflexivity).
  destruct (advance asort AS _ _ _ _ _ _ 0%nat 3%nat v g1 PRO T J3) as (u & J4 & _); auto.
  { rewrite G3, LIM. discriminate. }
  { intros w' FO _ U D. apply (caught asort AS g1 b1 g2 b2 _ L2 v w' FO U D). apply (near_mid _ _ _ _ E3'). lra. }
  rewrite ER in J1, J2, J3, J4. destruct rs as [|r1 [|r2 [|r3 [|r4 rs]]]]; try discriminate. injection J1 as ->. injection J2 as ->. injection J3 as ->. injection J4 as ->.
  exists h, t, comps, t', g1, w0, w1, w2, v, u, rs. split; [exact PRO|]. split; [exact T|]. split; [exact ER|]. split; [exact I1|]. split; [exact RD|]. split; [exact MA|].
  split; [split; [exact EP0|left; rewrite (place_is g1 _ w0 _ _ _ AlongZ L1 E0), (part_is g1 _ w0 AlongZ L1), TI; split; [reflexivity|unfold vdot; cbn; lra]]|]. split; [exact IX|].
  split; [rewrite (part_is g1 _ w0 AlongY L1), TI; unfold vdot; cbn; field|].
  constructor; [split; eauto|]. constructor; [split; eauto|]. constructor; [split; eauto|constructor].
Qed.
