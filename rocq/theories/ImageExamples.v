(** * ImageExamples: a ray inside a mirrored box, turned round by three of its sides *)
From Coq Require Import Reals List Bool ZArith Lra Lia Psatz.
Import ListNotations.
From Verif Require Import XR XRFacts Arr Lin LinFacts Ops OpsFacts SpecOptics Prim Csg Surf SpecGeom SpecTree SpecNormal CsgProps PrimFacts2 SurfFacts TreeFacts World SpecWorld Tracer SpecTrace
  TraceFacts3 TraceFacts5 TraceFacts6 TraceFacts7 TraceFacts8 TraceFacts9 TraceProps SpecCrossing Crossing CrossingProps CrossingExamples MirrorExamples PrismExamples2 PrismExamples3 MediumExamples SpecImages ImageFacts ImageFacts2.
Open Scope R_scope.

Definition box6 : prim := PCube (-6, -6, -6) (6, 6, 6).
Definition in_box6 (x y z : R) : Prop := (-6 <= x <= 6 /\ -6 <= y <= 6 /\ -6 <= z <= 6).
Definition line (x y z a b c : R) : ray := Ray (V4 x y z 1) (V4 a b c 0).
Lemma line_at : forall x y z a b c t, ray_at (line x y z a b c) t = V4 (x + t * a) (y + t * b) (z + t * c) 1.
Proof. intros. unfold ray_at, line, vadd, vscale; cbn [origin direction vx vy vz vw]. f_equal; ring. Qed.

Section Box.
  Variables (asort : list xr -> list nat) (g1 g2 : surf) (b1 b2 : box).
  Hypotheses (AS : argsort_ok asort) (L1 : leaf_as g1 box6 Mirror) (L2 : leaf_as g2 (PSphere 20) Absorber) (ND : NoDup (map s_id [g1; g2])).
  Let comps := [Leaf g1 b1; Leaf g2 b2].

  Lemma box_hits : forall x y z a b c lo hi, clear a -> clear b -> clear c -> (a <> 0 \/ b <> 0 \/ c <> 0) -> lo < hi ->
    (forall t, in_box6 (x + t * a) (y + t * b) (z + t * c) <-> lo <= t <= hi) -> surf_hits g1 (line x y z a b c) = [Fin lo; Fin hi].
  Proof.
    intros x y z a b c lo hi A B C NZ LH IN. apply chord_is.
    - apply L1.
    - split; [reflexivity|]. split; [reflexivity|]. intros (X & Y & Z). cbn in X, Y, Z. tauto.
    - rewrite (leaf_obj _ _ _ L1). destruct L1 as (_ & EP & _). rewrite EP. unfold line, ray_map. rewrite !mapply_mid. split; [|exact Logic.I]. cbn [clear_ray box6 direction vx vy vz]. auto.
    - auto.
    - intro t. rewrite line_at, (leaf_placed _ _ _ _ L1) by reflexivity. cbn [solid box6 vx vy vz]. unfold between. rewrite !Rmin_left, !Rmax_right by lra. apply IN.
  Qed.
  Lemma ball_far : forall x y z a b c t, (a <> 0 \/ b <> 0 \/ c <> 0) -> In (Fin t) (surf_hits g2 (line x y z a b c)) -> ~ in_box6 (x + t * a) (y + t * b) (z + t * c).
  Proof.
    intros x y z a b c t NZ H (X & Y & Z). apply surf_hits_ends in H. destruct L2 as (_ & EP & _). rewrite EP in H. rewrite (leaf_obj _ _ _ L2) in H.
    assert (E : ray_map mid (line x y z a b c) = line x y z a b c) by (unfold ray_map, line; rewrite !mapply_mid; reflexivity). rewrite E in H.
    assert (M : moving (line x y z a b c)). { unfold moving, line; cbn. intros (A & B & C). tauto. }
    pose proof (sphere_hits_surface 20 _ t M H) as S. rewrite line_at in S. cbn [on_surface vx vy vz] in S. nra.
  Qed.
  Lemma first_side : forall x y z a b c lo hi, clear a -> clear b -> clear c -> (a <> 0 \/ b <> 0 \/ c <> 0) -> lo <= 0 -> 0 < hi ->
    (forall t, in_box6 (x + t * a) (y + t * b) (z + t * c) <-> lo <= t <= hi) -> first_hit asort comps (line x y z a b c) hi (s_id g1).
  Proof.
    intros x y z a b c lo hi A B C NZ LO HI IN. pose proof (box_hits x y z a b c lo hi A B C NZ ltac:(lra) IN) as H1. exists 0%nat, 1%nat. split.
    - exists (Leaf g1 b1). cbn [nth_error comps shape_intersect fst snd]. rewrite H1. cbn. repeat split; lra.
    - intros i k t sid (s & I & K & S & T). unfold comps in I. destruct i as [|[|i]]; cbn in I; [injection I as <-|injection I as <-|destruct i; discriminate]; cbn [shape_intersect fst snd] in K, S.
      + rewrite H1 in K. destruct k as [|[|k]]; cbn in K; [injection K as <-; lra|injection K as <-; right; split; auto|destruct k; discriminate].
      + left. apply nth_error_In in K. apply (ball_far x y z a b c t NZ) in K. destruct (Rle_lt_dec t hi) as [LE|]; auto. exfalso. apply K, IN. lra.
  Qed.

  Lemma side_normal : forall x y z n, (x = 6 /\ -5 <= y <= 5 /\ -5 <= z <= 5 /\ n = V4 1 0 0 0) \/ (-5 <= x <= 5 /\ y = 6 /\ -5 <= z <= 5 /\ n = V4 0 1 0 0) \/ (-5 <= x <= 5 /\ -5 <= y <= 5 /\ z = 6 /\ n = V4 0 0 1 0) ->
    world_normal g1 (V4 x y z 1) = Some n.
  Proof.
    intros x y z n H. unfold world_normal. rewrite (leaf_obj _ _ _ L1). destruct L1 as (_ & EP & _ & _ & EN). rewrite EP, EN, mapply_mid. cbn [prim_normal box6]. unfold cube_normal. cbn [vx vy vz].
    rewrite !Rmin_left, !Rmax_right by lra.
    assert (FAR : forall v, -5 <= v <= 5 -> cube_normal_axis (-6) 6 v = 0).
    { intros v V. unfold cube_normal_axis. assert (IC : forall b, b = 6 \/ b = -6 -> isclose v b = false).
      { intros b B. unfold isclose. apply Bool.not_true_iff_false. rewrite rleb_true. unfold atol, rtol. intro J. destruct B as [-> | ->]; revert J; unfold Rabs; repeat destruct Rcase_abs; lra. }
      rewrite !IC by auto. reflexivity. }
    assert (AT : cube_normal_axis (-6) 6 6 = 1).
    { unfold cube_normal_axis. assert (IS : isclose 6 6 = true). { unfold isclose. apply rleb_true. rewrite Rminus_diag_eq by reflexivity. rewrite Rabs_R0. unfold atol, rtol. pose proof (Rabs_pos 6). lra. }
      rewrite IS. reflexivity. }
    assert (NU : forall v, vdot v v = 1 -> vnormalize v = Some v).
    { intros v V. unfold vnormalize. destruct (Req_EM_T (vdot v v) 0) as [Q|_]; [lra|]. unfold vnorm. rewrite V, sqrt_1, Rinv_1. f_equal. destruct v; unfold vscale; cbn. f_equal; ring. }
    assert (FIN : forall u, vdot u u = 1 -> vw u = 0 -> match vnormalize u with None => None | Some m => match vnormalize (vset_w (mapply (mtrans mid) m) 0) with None => None | Some w => Some (vscale 1 w) end end = Some u).
    { intros [u1 u2 u3 u4] U W. cbn [vw] in W. subst u4. rewrite NU by auto. assert (E : vset_w (mapply (mtrans mid) (V4 u1 u2 u3 0)) 0 = V4 u1 u2 u3 0) by (unfold mapply, mtrans, mid, vset_w, vdot; cbn; f_equal; ring).
      rewrite E, NU by auto. unfold vscale; cbn. f_equal. f_equal; ring. }
    destruct H as [(-> & Y & Z & ->)|[(X & -> & Z & ->)|(X & Y & -> & ->)]].
    - rewrite AT, (FAR y Y), (FAR z Z). apply FIN; [unfold vdot; cbn; ring|reflexivity].
    - rewrite AT, (FAR x X), (FAR z Z). apply FIN; [unfold vdot; cbn; ring|reflexivity].
    - rewrite AT, (FAR y Y), (FAR x X). apply FIN; [unfold vdot; cbn; ring|reflexivity].
  Qed.

  (** where the next row goes *)
  Lemma next_side : forall w w' q n k, facet_ok (n, k) -> here (row_end w) = q -> row_surf w = s_id g1 -> world_normal g1 q = Some n ->
    follows w w' -> bounce (flat_map surface_ids comps) w w' -> row_tilt w' = turned_by (row_tilt w) (n, k) /\
    Ray (here (row_start w')) (row_tilt w') = Ray (vset_w (vadd q (vscale ray_offset_value (row_tilt w'))) 1) (row_tilt w').
  Proof.
    intros w w' q n k F E RS WN (ST & _) (g & n' & G & ID & NO & U & B).
    assert (g = g1) by (apply (same_surface [g1; g2]); auto; [left; reflexivity|congruence]). subst g. rewrite E, WN in NO. injection NO as <-.
    destruct L1 as (_ & _ & EM & _). rewrite EM in B. destruct B as (_ & B). split.
    - apply (turned_mirrored (n, k) _ _ n F); auto.
    - f_equal. rewrite ST, <- E. destruct (row_end w) as [e1 e2 e3 e4], (row_tilt w') as [d1 d2 d3 d4]. unfold here, vset_w, vadd, vscale; cbn [vx vy vz vw]. reflexivity.
  Qed.
End Box.
Lemma third_clear : clear (1 / 3) /\ clear (2 / 3) /\ clear (- (1 / 3)) /\ clear (- (2 / 3)).
Proof. repeat split; apply clear_of; unfold Rabs; destruct Rcase_abs; lra. Qed.
Definition side_x : facet := (V4 1 0 0 0, 6).
Definition side_y : facet := (V4 0 1 0 0, 6).
Definition side_z : facet := (V4 0 0 1 0, 6).
Lemma sides_ok : facet_ok side_x /\ facet_ok side_y /\ facet_ok side_z.
Proof. repeat split; unfold unit, vdot; cbn; ring. Qed.
Definition inner_ray : list col := [Col (line 5 0 (-3) (1 / 3) (2 / 3) (2 / 3)) 0 100 1 1 0].
Lemma box_case : forall asort, argsort_ok asort -> exists h t comps t' w0 w1 w2 w3 after,
  proper (fun _ _ => inner_ray) h t comps /\ trace asort h (fun _ _ => inner_ray) 22 t = TOk t' /\
  rows_with_id 0 (f_rows (get_results t')) = [w0; w1; w2] ++ w3 :: after /\
  Forall2 (off_mirror (flat_map surface_ids comps)) [side_x; side_y; side_z] [w0; w1; w2] /\
  here (row_start w0) = V4 5 0 (-3) 1 /\ row_tilt w0 = V4 (1 / 3) (2 / 3) (2 / 3) 0.
Proof.
  intros asort AS.
  destruct (two_scene asort AS box6 Mirror (PSphere 20) Absorber inner_ray) as (h & g1 & b1 & g2 & b2 & t & L1 & L2 & B1 & B2 & NW & PRO & SR & LIM); cbn [prim_ok capped optical box6]; auto; try lra; try discriminate.
  { intros c [<- | []]. split; [|reflexivity]. unfold ray_ok, line; cbn. do 2 (split; [reflexivity|]). split; [left|lra]. unfold unit, vdot; cbn. field. }
  set (comps := [Leaf g1 b1; Leaf g2 b2]) in *.
  destruct (proper_trace_ok asort AS _ _ _ _ 22 PRO) as (t' & T); [rewrite LIM; cbn; lia|].
  pose proof PRO as ((SHP & _ & ND) & _). change (flat_map surface_ids comps) with [g1; g2] in ND.
  assert (OFF : 0 < ray_offset_value < 1 / 100) by (unfold ray_offset_value; lra). set (e := ray_offset_value) in *.
  destruct third_clear as (C1 & C2 & C3 & C4). destruct sides_ok as (FX & FY & FZ).
  assert (SRC : nth_error (source_rays (fun _ _ => inner_ray) t) 0 = Some (Col (line 5 0 (-3) (1 / 3) (2 / 3) (2 / 3)) 0 100 1 1 0)) by (rewrite SR; reflexivity).
  assert (H0 : first_hit asort comps (line 5 0 (-3) (1 / 3) (2 / 3) (2 / 3)) 3 (s_id g1)).
  { apply (first_side asort g1 g2 b1 b2 L1 L2 _ _ _ _ _ _ (- (9 / 2))); auto; try lra. intro u. unfold in_box6. split; intro; lra. }
  assert (H1 : first_hit asort comps (line (6 + e * - (1 / 3)) (2 + e * (2 / 3)) (-1 + e * (2 / 3)) (- (1 / 3)) (2 / 3) (2 / 3)) (6 - e) (s_id g1)).
  { apply (first_side asort g1 g2 b1 b2 L1 L2 _ _ _ _ _ _ (- e)); auto; try lra. intro u. unfold in_box6. split; intro; lra. }
  assert (H2 : first_hit asort comps (line (4 + e * - (1 / 3)) (6 + e * - (2 / 3)) (3 + e * (2 / 3)) (- (1 / 3)) (- (2 / 3)) (2 / 3)) (9 / 2 - e) (s_id g1)).
  { apply (first_side asort g1 g2 b1 b2 L1 L2 _ _ _ _ _ _ (- e)); auto; try lra. intro u. unfold in_box6. split; intro; lra. }
  assert (H3 : first_hit asort comps (line (5 / 2 + e * - (1 / 3)) (3 + e * - (2 / 3)) (6 + e * - (2 / 3)) (- (1 / 3)) (- (2 / 3)) (- (2 / 3))) (27 / 2 - e) (s_id g1)).
  { apply (first_side asort g1 g2 b1 b2 L1 L2 _ _ _ _ _ _ (- e)); auto; try lra. intro u. unfold in_box6. split; intro; lra. }
  assert (NE : rows_with_id 0 (f_rows (get_results t')) <> []).
  { intro X. apply (no_row asort AS _ _ _ _ _ comps T SHP 0%nat _ SRC) in X. destruct X as [X|X].
    - unfold stopped, line, vnorm in X. cbn [c_ray direction] in X. unfold vdot in X; cbn [vx vy vz vw] in X.
      replace (1 / 3 * (1 / 3) + 2 / 3 * (2 / 3) + 2 / 3 * (2 / 3) + 0 * 0) with 1 in X by field. rewrite sqrt_1 in X. unfold atol in X. lra.
    - destruct H0 as (x & y & R & _). apply (X _ _ _ _ R). }
  destruct (rows_with_id 0 (f_rows (get_results t'))) as [|w0 rs] eqn:ER; [contradiction|]. clear NE.
  assert (J0 : nth_error (rows_with_id 0 (f_rows (get_results t'))) 0 = Some w0) by (rewrite ER; reflexivity).
  destruct (proper_bounces asort AS _ _ _ _ _ _ PRO T 0%nat _ eq_refl) as (BF & BB & _). destruct (BF w0 J0) as (c0 & C0 & FR).
  rewrite SRC in C0. injection C0 as <-. destruct FR as (S0 & D0 & X0 & W0 & G0 & _). cbn [c_ray c_idx c_wl c_gen line origin direction] in *.
  destruct (proper_legs asort AS _ _ _ _ _ _ PRO T) as (LG & _).
  assert (LG0 : leg asort comps w0) by (apply LG, (in_rows_with_id 0 _ w0); apply nth_error_In in J0; exact J0).
  assert (HS : here (row_start w0) = V4 5 0 (-3) 1) by (rewrite S0, here_trim by reflexivity; reflexivity).
  assert (R0 : Ray (here (row_start w0)) (row_tilt w0) = line 5 0 (-3) (1 / 3) (2 / 3) (2 / 3)) by (rewrite HS, D0; reflexivity).
  destruct (leg_end _ _ _ _ _ _ LG0 R0 H0) as (RS0 & E0).
  assert (I1 : In g1 [g1; g2]) by (left; reflexivity).
  assert (MA : s_mat g1 <> Absorber) by (destruct L1 as (_ & _ & -> & _); discriminate).
  (* first side *)
  assert (EW0 : here (row_end w0) = V4 6 2 (-1) 1) by (rewrite E0, line_at; f_equal; field).
  pose proof (side_normal g1 L1 6 2 (-1) (V4 1 0 0 0) ltac:(left; repeat split; lra)) as N0.
  assert (NEXT0 : forall w', follows w0 w' -> SpecTrace.bounce [g1; g2] w0 w' -> row_tilt w' = V4 (- (1 / 3)) (2 / 3) (2 / 3) 0 /\
    Ray (here (row_start w')) (row_tilt w') = line (6 + e * - (1 / 3)) (2 + e * (2 / 3)) (-1 + e * (2 / 3)) (- (1 / 3)) (2 / 3) (2 / 3)).
  { intros w' FO BO. destruct (next_side g1 g2 b1 b2 L1 ND w0 w' _ _ 6 FX EW0 RS0 N0 FO BO) as (TI & RA).
    assert (TI' : row_tilt w' = V4 (- (1 / 3)) (2 / 3) (2 / 3) 0) by (rewrite TI, D0; vec; f_equal; field). split; [auto|]. rewrite RA, TI'. reflexivity. }
  destruct (advance asort AS _ _ _ _ _ _ 0%nat 0%nat w0 g1 PRO T J0) as (w1 & J1 & FO1 & BO1 & LG1 & WL1); auto.
  { rewrite G0, LIM. discriminate. }
  { intros w' FO BO U D. destruct (NEXT0 w' FO BO) as (_ & WE). rewrite WE. eauto. }
  destruct (NEXT0 w1 FO1 BO1) as (D1 & R1). destruct (leg_end _ _ _ _ _ _ LG1 R1 H1) as (RS1 & E1).
  (* second side *)
  assert (EW1 : here (row_end w1) = V4 4 6 3 1) by (rewrite E1, line_at; f_equal; field).
  pose proof (side_normal g1 L1 4 6 3 (V4 0 1 0 0) ltac:(right; left; repeat split; lra)) as N1.
  assert (NEXT1 : forall w', follows w1 w' -> SpecTrace.bounce [g1; g2] w1 w' -> row_tilt w' = V4 (- (1 / 3)) (- (2 / 3)) (2 / 3) 0 /\
    Ray (here (row_start w')) (row_tilt w') = line (4 + e * - (1 / 3)) (6 + e * - (2 / 3)) (3 + e * (2 / 3)) (- (1 / 3)) (- (2 / 3)) (2 / 3)).
  { intros w' FO BO. destruct (next_side g1 g2 b1 b2 L1 ND w1 w' _ _ 6 FY EW1 RS1 N1 FO BO) as (TI & RA).
    assert (TI' : row_tilt w' = V4 (- (1 / 3)) (- (2 / 3)) (2 / 3) 0) by (rewrite TI, D1; vec; f_equal; field). split; [auto|]. rewrite RA, TI'. reflexivity. }
  destruct (advance asort AS _ _ _ _ _ _ 0%nat 1%nat w1 g1 PRO T J1) as (w2 & J2 & FO2 & BO2 & LG2 & WL2); auto.
  { destruct FO1 as (_ & ->). rewrite G0, LIM. discriminate. }
  { intros w' FO BO U D. destruct (NEXT1 w' FO BO) as (_ & WE). rewrite WE. eauto. }
  destruct (NEXT1 w2 FO2 BO2) as (D2 & R2). destruct (leg_end _ _ _ _ _ _ LG2 R2 H2) as (RS2 & E2).
  (* third side *)
  assert (EW2 : here (row_end w2) = V4 (5 / 2) 3 6 1) by (rewrite E2, line_at; f_equal; field).
  pose proof (side_normal g1 L1 (5 / 2) 3 6 (V4 0 0 1 0) ltac:(right; right; repeat split; lra)) as N2.
  assert (NEXT2 : forall w', follows w2 w' -> SpecTrace.bounce [g1; g2] w2 w' -> row_tilt w' = V4 (- (1 / 3)) (- (2 / 3)) (- (2 / 3)) 0 /\
    Ray (here (row_start w')) (row_tilt w') = line (5 / 2 + e * - (1 / 3)) (3 + e * - (2 / 3)) (6 + e * - (2 / 3)) (- (1 / 3)) (- (2 / 3)) (- (2 / 3))).
  { intros w' FO BO. destruct (next_side g1 g2 b1 b2 L1 ND w2 w' _ _ 6 FZ EW2 RS2 N2 FO BO) as (TI & RA).
    assert (TI' : row_tilt w' = V4 (- (1 / 3)) (- (2 / 3)) (- (2 / 3)) 0) by (rewrite TI, D2; vec; f_equal; field). split; [auto|]. rewrite RA, TI'. reflexivity. }
  destruct (advance asort AS _ _ _ _ _ _ 0%nat 2%nat w2 g1 PRO T J2) as (w3 & J3 & FO3 & BO3 & LG3 & WL3); auto.
  { destruct FO2 as (_ & ->), FO1 as (_ & ->). rewrite G0, LIM. discriminate. }
  { intros w' FO BO U D. destruct (NEXT2 w' FO BO) as (_ & WE). rewrite WE. eauto. }
  rewrite ER in J1, J2, J3. cbn [nth_error] in J1, J2, J3.
  destruct rs as [|x1 [|x2 [|x3 after]]]; cbn in J1, J2, J3; try discriminate. injection J1 as ->. injection J2 as ->. injection J3 as ->.
  exists h, t, comps, t', w0, w1, w2, w3, after. split; [exact PRO|]. split; [exact T|]. split; [exact ER|]. split; [|auto].
  change (flat_map surface_ids comps) with [g1; g2]. pose proof (proj1 (proj2 (proj2 L1))) as EM.
  repeat constructor; exists g1; (split; [exact I1|]); (split; [congruence|]); (split; [exact EM|]).
  - rewrite EW0. split; [unfold side_x, vdot; cbn; ring|left; exact N0].
  - rewrite EW1. split; [unfold side_y, vdot; cbn; ring|left; exact N1].
  - rewrite EW2. split; [unfold side_z, vdot; cbn; ring|left; exact N2].
Qed.
