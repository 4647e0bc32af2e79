(** * PlateExamples: a ray straight through a block of glass *)
From Coq Require Import Reals List Bool ZArith Lra Lia Psatz.
Import ListNotations.
From Verif Require Import XR XRFacts Arr Lin LinFacts Ops OpsFacts SpecOptics Prim Csg Surf SpecGeom SpecTree SpecNormal CsgProps PrimFacts2 SurfFacts TreeFacts World SpecWorld Tracer SpecTrace
  TraceFacts3 TraceFacts5 TraceFacts6 TraceFacts7 TraceFacts8 TraceFacts9 TraceProps SpecCrossing Crossing CrossingProps CrossingExamples MirrorExamples PrismLaw PrismFacts PrismProps PrismExamples2 PrismExamples3 MediumExamples
  SpecComponents SpecEdges SpecMotion SpecSymmetry ImageExamples SpecSkew SkewExamples BallFacts BallExamples SpecRod RodFacts RodProps RodExamples SpecBlock BlockProps BlockExamples.
Open Scope R_scope.

Definition plate_lamp : list col := [Col (line 0 (- (22 / 5)) (- (24 / 5)) 0 (7 / 25) (24 / 25)) 0 100 1 1 0].
Lemma plate_case : forall asort, argsort_ok asort -> exists h t comps t' f w0 v u after,
  proper (fun _ _ => plate_lamp) h t comps /\ trace asort h (fun _ _ => plate_lamp) 22 t = TOk t' /\
  rows_with_id 0 (f_rows (get_results t')) = [] ++ [w0; v; u] ++ after /\ In f (flat_map surface_ids comps) /\ block f lows highs /\
  s_mat f = Refractor (fun _ => Fin (8 / 5)) /\ enters f lows highs AlongY w0 /\ row_idx w0 = 1 /\ leaves f lows highs AlongY v /\ part f AlongZ w0 = 24 / 25 /\ place f AlongZ v = 9 / 2.
Proof.
  intros asort AS.
  destruct (two_scene asort AS bar (Refractor (fun _ => Fin (8 / 5))) (PSphere 20) Absorber plate_lamp) as (h & g1 & b1 & g2 & b2 & t & L1 & L2 & B1 & B2 & NW & PRO & SR & LIM); cbn [prim_ok capped optical]; auto; try lra; try discriminate.
  { intros wl _. exists (8 / 5). split; [reflexivity|lra]. }
  { intros c [<- | []]. split; [|reflexivity]. unfold ray_ok, line; cbn. do 2 (split; [reflexivity|]). split; [left|lra]. unfold unit, vdot; cbn. field. }
  set (comps := [Leaf g1 b1; Leaf g2 b2]) in *.
  destruct (proper_trace_ok asort AS _ _ _ _ 22 PRO) as (t' & T); [rewrite LIM; cbn; lia|].
  assert (H0 : first_hit asort comps (line 0 (- (22 / 5)) (- (24 / 5)) 0 (7 / 25) (24 / 25)) 5 (s_id g1)).
  { apply (chord_first asort AS g1 b1 g2 b2 _ L2 _ _ _ _ _ _ 5 (40 / 3)); try lra. apply (block_chord g1 _ _ _ _ _ _ _ L1); try lra; try (rewrite Rabs_right by lra; lra); try (rewrite Rabs_left by lra; lra); intro s; lra. }
  destruct (start_row asort AS h t comps t' _ _ _ _ _ _ _ 5 (s_id g1) PRO SR T ltac:(lra) H0) as (w0 & rs & ER & RS & EE & TI & IX & WL & GE).
  assert (E0 : here (row_end w0) = V4 0 (-3) 0 1) by (rewrite EE; f_equal; lra). clear EE.
  assert (J0 : nth_error (rows_with_id 0 (f_rows (get_results t'))) 0 = Some w0) by (rewrite ER; reflexivity).
  pose proof PRO as ((_ & _ & ND) & _ & _ & _ & PO). pose proof (leaf_block g1 _ L1) as RD.
  assert (I1 : In g1 (flat_map surface_ids comps)) by (left; reflexivity). destruct (PO g1 I1) as (_ & _ & IV & _).
  assert (MA : s_mat g1 = Refractor (fun _ => Fin (8 / 5))) by apply L1. assert (NA : s_mat g1 <> Absorber) by (rewrite MA; discriminate).
  assert (EP0 : ends_on_pair g1 lows highs AlongY w0) by (apply (pair_is g1 _ w0 _ _ _ _ L1 RS E0); [left; reflexivity|intros [] NB; cbn; try congruence; (split; [lra|intro; try congruence; lra])]).
  assert (OFF : 0 < ray_offset_value < 1 / 100) by (unfold ray_offset_value; lra).
  destruct (advance asort AS _ _ _ _ _ _ 0%nat 0%nat w0 g1 PRO T J0) as (w1 & J1 & FO1 & BO1 & LG1 & WL1); auto.
  { rewrite GE, LIM. discriminate. }
  { intros w' FO _ U D. apply (caught asort AS g1 b1 g2 b2 _ L2 w0 w' FO U D). apply (near_mid _ _ _ _ E0). lra. }
  assert (WD : s_world g1 = mid) by apply L1.
  assert (WN0 : world_normal g1 (here (row_end w0)) = Some (V4 0 (-1) 0 0)).
  { rewrite (face_normal g1 lows highs IV RD AlongY w0 EP0), WD, mapply_mid. unfold sense. rewrite (place_is g1 _ w0 _ _ _ AlongY L1 E0). cbn [coord highs arrow vy]. destruct (Req_EM_T (-3) 3); [lra|]. unfold vscale; cbn. f_equal. f_equal; ring. }
  destruct (bounce_at _ g1 w0 w1 _ (fun _ => Fin (8 / 5)) ND I1 RS WN0 MA BO1) as (UN0 & n2 & X2 & RF & _). injection X2 as <-. pose proof LG1 as (U1 & D1 & _).
  assert (U0 : unit (row_tilt w0)) by (rewrite TI; unfold unit, vdot; cbn; field).
  assert (DD : vdot (row_tilt w0) (V4 0 (-1) 0 0) = - (7 / 25)) by (rewrite TI; unfold vdot; cbn; field).
  cbv zeta in RF. unfold next_index in RF. rewrite DD in RF. destruct (Rlt_dec 0 (- (7 / 25))) as [Y|_]; [lra|]. rewrite IX in RF.
  pose proof (sine_sq _ _ U0 UN0) as S0. rewrite DD in S0. assert (SP : 0 <= vnorm (tangential (row_tilt w0) (V4 0 (-1) 0 0))) by apply sqrt_pos.
  destruct RF as (X1 & SN & A1); [nra|]. pose proof (snell_sines _ _ _ _ _ U0 U1 UN0 SN) as Q. rewrite DD in Q.
  assert (Q1 : vdot (row_tilt w1) (V4 0 (-1) 0 0) = - (4 / 5)) by nra.
  assert (T1 : row_tilt w1 = V4 0 (4 / 5) (3 / 5) 0).
  { pose proof (snell_solve _ _ _ _ _ SN) as S1. rewrite DD, Q1, TI in S1. revert S1. destruct (row_tilt w1) as [a b c d]. unfold vscale, vadd; cbn [vx vy vz vw]. intro E. injection E as F1 F2 F3 F4. f_equal; lra. }
  clear Q1 Q SN A1 S0 SP DD UN0 WN0.
  pose proof (next_start _ _ _ _ _ _ _ _ FO1 E0 T1) as R1. set (e := ray_offset_value) in *.
  assert (H1 : first_hit asort comps (line (0 + e * 0) (-3 + e * (4 / 5)) (0 + e * (3 / 5)) 0 (4 / 5) (3 / 5)) (15 / 2 - e) (s_id g1)).
  { replace (0 + e * 0) with 0 by ring. apply (chord_first asort AS g1 b1 g2 b2 _ L2 _ _ _ _ _ _ (- e) (15 / 2 - e)); try lra; try nra. apply (block_chord g1 _ _ _ _ _ _ _ L1); try lra; try (rewrite Rabs_right by lra; lra); try (rewrite Rabs_left by lra; lra); intro s; lra. }
  destruct (leg_end _ _ _ _ _ _ LG1 R1 H1) as (RS1 & E1). rewrite line_at in E1.
  assert (E1' : here (row_end w1) = V4 0 3 (9 / 2) 1) by (rewrite E1; f_equal; lra). clear E1.
  assert (ES1 : ends_on_pair g1 lows highs AlongY w1) by (apply (pair_is g1 _ w1 _ _ _ _ L1 RS1 E1'); [right; reflexivity|intros [] NB; cbn; try congruence; (split; [lra|intro; try congruence; lra])]).
  assert (G1 : row_gen w1 = 1%nat) by (destruct FO1 as (_ & ->); rewrite GE; reflexivity).
  destruct (advance asort AS _ _ _ _ _ _ 0%nat 1%nat w1 g1 PRO T J1) as (u & J2 & _); auto.
  { rewrite G1, LIM. discriminate. }
  { intros w' FO _ U D. apply (caught asort AS g1 b1 g2 b2 _ L2 w1 w' FO U D). apply (near_mid _ _ _ _ E1'). lra. }
  rewrite ER in J1, J2. destruct rs as [|r1 [|r2 rs]]; try discriminate. injection J1 as ->. injection J2 as ->.
  exists h, t, comps, t', g1, w0, w1, u, rs. split; [exact PRO|]. split; [exact T|]. split; [exact ER|]. split; [exact I1|]. split; [exact RD|]. split; [exact MA|].
  split; [split; [exact EP0|left; rewrite (place_is g1 _ w0 _ _ _ AlongY L1 E0), (part_is g1 _ w0 AlongY L1), TI; split; [reflexivity|unfold vdot; cbn; lra]]|]. split; [exact IX|].
  split; [split; [exact ES1|right; rewrite (place_is g1 _ w1 _ _ _ AlongY L1 E1'), (part_is g1 _ w1 AlongY L1), T1; split; [reflexivity|unfold vdot; cbn; lra]]|].
  split; [rewrite (part_is g1 _ w0 AlongZ L1), TI; unfold vdot; cbn; field|]. rewrite (place_is g1 _ w1 _ _ _ AlongZ L1 E1'). reflexivity.
Qed.
