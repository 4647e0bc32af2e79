(** * BallExamples: two rays through balls of glass *)
From Coq Require Import Reals List Bool ZArith Lra Lia Psatz.
Import ListNotations.
From Verif Require Import XR XRFacts Arr Lin LinFacts Ops OpsFacts SpecOptics Prim Csg Surf SpecGeom SpecTree SpecNormal CsgProps PrimFacts2 SurfFacts TreeFacts World SpecWorld Tracer SpecTrace
  TraceFacts3 TraceFacts5 TraceFacts6 TraceFacts7 TraceFacts8 TraceFacts9 TraceProps SpecCrossing Crossing CrossingProps CrossingExamples MirrorExamples PrismLaw PrismFacts PrismProps PrismExamples2 PrismExamples3 MediumExamples
  SpecComponents SpecMotion SpecSymmetry ImageExamples SpecSkew SkewExamples SpecBall BallFacts BallProps.
Open Scope R_scope.

(** inside the absorbing sphere something is hit *)
Lemma caught : forall asort, argsort_ok asort -> forall g1 b1 g2 b2 m, leaf_as g2 (PSphere 20) m -> forall w w', follows w w' -> unit (row_tilt w') -> vw (row_tilt w') = 0 ->
  vx (row_end w) * vx (row_end w) + vy (row_end w) * vy (row_end w) + vz (row_end w) * vz (row_end w) <= 81 ->
  exists q sid, first_hit asort [Leaf g1 b1; Leaf g2 b2] (Ray (here (row_start w')) (row_tilt w')) q sid.
Proof.
  intros asort AS g1 b1 g2 b2 m L2 w w' (ST & _) U D IN.
  assert (OFF : 0 < ray_offset_value < 1 / 100) by (unfold ray_offset_value; lra).
  assert (RA : exists a b c x y z, a * a + b * b + c * c = 1 /\ x * x + y * y + z * z <= 81 /\ Ray (here (row_start w')) (row_tilt w') =
      line (x + ray_offset_value * a) (y + ray_offset_value * b) (z + ray_offset_value * c) a b c).
  { revert ST U D IN. destruct (row_tilt w') as [a b c d], (row_end w) as [x y z o]. intros ST U D IN. cbn [vx vy vz vw] in D, IN. subst d. exists a, b, c, x, y, z.
    split; [unfold unit, vdot in U; cbn in U; lra|]. split; [exact IN|]. unfold line. f_equal. rewrite ST. unfold here, vset_w, vadd, vscale; cbn [vx vy vz vw]. reflexivity. }
  destruct RA as (a & b & c & x & y & z & N & IN' & ->). set (e := ray_offset_value) in *.
  set (r := line (x + e * a) (y + e * b) (z + e * c) a b c).
  destruct (propagate_first asort AS [Leaf g1 b1; Leaf g2 b2] (Col r 0 0 0 0 0)) as [(_ & NH)|(q & sid & _ & FH)]; [|eauto]. exfalso. cbn [c_ray] in NH.
  set (hh := a * (x + e * a) + b * (y + e * b) + c * (z + e * c)).
  set (DD := hh * hh - ((x + e * a) * (x + e * a) + (y + e * b) * (y + e * b) + (z + e * c) * (z + e * c) - 20 * 20)).
  assert (SQ : forall u v, (u + e * v) * (u + e * v) <= 2 * (u * u) + 2 * (e * e) * (v * v)) by (intros u v; pose proof (Rle_0_sqr (u - e * v)) as X; unfold Rsqr in X; lra).
  assert (P1 : (x + e * a) * (x + e * a) + (y + e * b) * (y + e * b) + (z + e * c) * (z + e * c) < 200).
  { pose proof (SQ x a). pose proof (SQ y b). pose proof (SQ z c). assert (2 * (e * e) * (a * a) + 2 * (e * e) * (b * b) + 2 * (e * e) * (c * c) = 2 * (e * e)) by (transitivity (2 * (e * e) * (a * a + b * b + c * c)); [ring|rewrite N; ring]). assert (e * e < 1) by nra. lra. }
  assert (P2 : hh * hh < DD) by (unfold DD; lra). assert (P3 : 0 < DD) by nra.
  assert (P4 : 0 < - hh + sqrt DD).
  { pose proof (sqrt_lt_R0 DD P3). pose proof (sqrt_sqrt DD ltac:(lra)). nra. }
  apply (NH 1%nat 1%nat (- hh + sqrt DD) (s_id g2)). exists (Leaf g2 b2). split; [reflexivity|]. cbn [shape_intersect fst snd].
  unfold r. rewrite (ball_chord g2 20 _ _ _ _ a b c L2) by (auto; lra). split; [reflexivity|]. split; [reflexivity|exact P4].
Qed.
(** a first hit on the inner ball, when the outer one is further off *)
Lemma inner_first : forall asort, argsort_ok asort -> forall g1 b1 m1 k g2 b2 m2, leaf_as g1 (PSphere k) m1 -> leaf_as g2 (PSphere 20) m2 -> 0 < k <= 5 ->
  forall x y z a b c t, a * a + b * b + c * c = 1 -> let h := a * x + b * y + c * z in let D := h * h - (x * x + y * y + z * z - k * k) in
  0 < D -> 0 < t -> (t = - h - sqrt D \/ t = - h + sqrt D /\ - h - sqrt D <= 0) ->
  x * x + y * y + z * z < 400 ->
  first_hit asort [Leaf g1 b1; Leaf g2 b2] (line x y z a b c) t (s_id g1).
Proof.
  intros asort AS g1 b1 m1 k g2 b2 m2 L1 L2 KP x y z a b c t N h D DP TP TT IN.
  pose proof (ball_chord g1 k _ x y z a b c L1 ltac:(lra) N DP) as S1.
  assert (DD : 0 < h * h - (x * x + y * y + z * z - 20 * 20)) by nra.
  pose proof (ball_chord g2 20 _ x y z a b c L2 ltac:(lra) N DD) as S2. fold h D in S1. fold h in S2. set (D2 := h * h - (x * x + y * y + z * z - 20 * 20)) in *.
  pose proof (sqrt_lt_R0 D DP) as SP. pose proof (sqrt_sqrt D ltac:(lra)) as SS. pose proof (sqrt_lt_R0 D2 DD) as SP2. pose proof (sqrt_sqrt D2 ltac:(lra)) as SS2.
  set (s := sqrt D) in *. set (s2 := sqrt D2) in *. assert (S12 : s < s2) by (unfold D, D2 in *; nra).
  assert (NEG : - h - s2 < 0) by (unfold D2 in *; nra).
  exists 0%nat, (match Rle_dec (- h - s) 0 with left _ => 1%nat | _ => 0%nat end). split.
  - exists (Leaf g1 b1). cbn [nth_error shape_intersect fst snd]. rewrite S1. destruct (Rle_dec (- h - s) 0) as [Q|Q]; cbn; (split; [reflexivity|]); (split; [|split; [reflexivity|lra]]); f_equal; f_equal; destruct TT as [->|(-> & TT)]; lra.
  - intros i j u sid (sh & I & K & S & U). destruct i as [|[|i]]; cbn in I; [injection I as <-|injection I as <-|destruct i; discriminate]; cbn [shape_intersect fst snd] in K, S.
    + rewrite S1 in K. destruct j as [|[|j]]; cbn in K; [injection K as <-|injection K as <-|destruct j; discriminate].
      * destruct (Rle_dec (- h - s) 0) as [Q|Q]; [lra|]. right. split; [destruct TT as [->|(-> & TT)]; lra|]. right; split; auto.
      * destruct (Rle_dec (- h - s) 0) as [Q|Q]; [right; split; [destruct TT as [->|(-> & TT)]; lra|right; split; auto]|left; destruct TT as [->|(-> & TT)]; lra].
    + left. rewrite S2 in K. destruct j as [|[|j]]; cbn in K; [injection K as <-|injection K as <-|destruct j; discriminate]; [lra|].
      destruct TT as [->|(-> & TT)]; lra.
Qed.
Lemma leaf_ball : forall g r m, leaf_as g (PSphere r) m -> 0 < r -> ball g (pt 0 0 0) r.
Proof.
  intros g r m (OK & P & M & W & K) R. unfold ball. rewrite W, mapply_mid. split; [exact R|]. split; [exact P|]. split; [apply id_iso|]. split; [reflexivity|exact K].
Qed.
Lemma on_ball : forall c r b q, c = pt 0 0 0 -> unit b -> vw b = 0 -> here q = vadd c (vscale r b) -> vx q * vx q + vy q * vy q + vz q * vz q = r * r.
Proof.
  intros c r b [x y z o] -> U Z E. destruct b as [b1 b2 b3 b4]. cbn [vw] in Z. subst. unfold unit, vdot in U. unfold here, vset_w, pt, vadd, vscale in E. cbn [vx vy vz vw] in *. injection E as -> -> ->.
  transitivity (r * r * (b1 * b1 + b2 * b2 + b3 * b3 + 0 * 0)); [ring|rewrite U; ring].
Qed.
Lemma start_row : forall asort, argsort_ok asort -> forall h t comps t' x y z a b c n q sid, proper (fun _ _ => [Col (line x y z a b c) 0 100 1 n 0]) h t comps ->
  source_rays (fun _ _ => [Col (line x y z a b c) 0 100 1 n 0]) t = [Col (line x y z a b c) 0 100 1 n 0] ->
  trace asort h (fun _ _ => [Col (line x y z a b c) 0 100 1 n 0]) 22 t = TOk t' -> a * a + b * b + c * c = 1 -> first_hit asort comps (line x y z a b c) q sid ->
  exists w0 rs, rows_with_id 0 (f_rows (get_results t')) = w0 :: rs /\ row_surf w0 = sid /\ here (row_end w0) = V4 (x + q * a) (y + q * b) (z + q * c) 1 /\ row_tilt w0 = V4 a b c 0 /\ row_idx w0 = n /\
    row_wl w0 = 1 /\ row_gen w0 = 0%nat.
Proof.
  intros asort AS h t comps t' x y z a b c n q sid PRO SR T N H0. set (cols := [Col (line x y z a b c) 0 100 1 n 0]) in *.
  assert (SRC : nth_error (source_rays (fun _ _ => cols) t) 0 = Some (Col (line x y z a b c) 0 100 1 n 0)) by (rewrite SR; reflexivity). pose proof PRO as ((SHP & _) & _).
  assert (NE : rows_with_id 0 (f_rows (get_results t')) <> []).
  { intro X. apply (no_row asort AS _ _ _ _ _ comps T SHP 0%nat _ SRC) in X. destruct X as [X|X].
    - unfold stopped, line, vnorm in X. cbn [c_ray direction] in X. unfold vdot in X; cbn [vx vy vz vw] in X.
      replace (a * a + b * b + c * c + 0 * 0) with 1 in X by lra. rewrite sqrt_1 in X. unfold atol in X. lra.
    - destruct H0 as (i & j & R & _). apply (X _ _ _ _ R). }
  destruct (rows_with_id 0 (f_rows (get_results t'))) as [|w0 rs] eqn:ER; [contradiction|]. clear NE.
  assert (J0 : nth_error (rows_with_id 0 (f_rows (get_results t'))) 0 = Some w0) by (rewrite ER; reflexivity).
  destruct (proper_bounces asort AS _ _ _ _ _ _ PRO T 0%nat _ eq_refl) as (BF & BB & _). destruct (BF w0 J0) as (c0 & C0 & FR).
  rewrite SRC in C0. injection C0 as <-. destruct FR as (S0 & D0 & X0 & W0 & G0 & _). cbn [c_ray c_idx c_wl c_gen line origin direction] in *.
  destruct (proper_legs asort AS _ _ _ _ _ _ PRO T) as (LG & _).
  assert (LG0 : leg asort comps w0) by (apply LG, (in_rows_with_id 0 _ w0); apply nth_error_In in J0; exact J0).
  assert (HS : here (row_start w0) = V4 x y z 1) by (rewrite S0, here_trim by reflexivity; reflexivity).
  assert (R0 : Ray (here (row_start w0)) (row_tilt w0) = line x y z a b c) by (rewrite HS, D0; reflexivity).
  destruct (leg_end _ _ _ _ _ _ LG0 R0 H0) as (RS0 & E0). rewrite line_at in E0. exists w0, rs. split; [reflexivity|]. split; [exact RS0|]. split; [exact E0|]. auto.
Qed.

(** ** from the aplanatic point of a ball of index 3/2 *)
Definition inner_lamp : list col := [Col (line 2 0 0 (- (1 / 3)) (2 / 3) (2 / 3)) 0 100 1 (3 / 2) 0].
Lemma aplanatic_case : forall asort, argsort_ok asort -> exists h t comps t' f w1 w2 after,
  proper (fun _ _ => inner_lamp) h t comps /\ trace asort h (fun _ _ => inner_lamp) 22 t = TOk t' /\
  rows_with_id 0 (f_rows (get_results t')) = [] ++ w1 :: w2 :: after /\ In f (flat_map surface_ids comps) /\ ball f (pt 0 0 0) 3 /\
  s_mat f = Refractor (fun _ => Fin (3 / 2)) /\ row_surf w1 = s_id f /\ row_idx w1 = 3 / 2 /\ 3 / 2 * (3 / 2) * vdot (V4 2 0 0 0) (V4 2 0 0 0) = 3 * 3 /\
  here (row_end w1) = vadd (vadd (pt 0 0 0) (V4 2 0 0 0)) (vscale 3 (row_tilt w1)) /\
  3 / 2 * (3 / 2) * vdot (vsub (here (row_end w1)) (pt 0 0 0)) (V4 2 0 0 0) < 3 * 3 /\ row_tilt w1 = V4 (- (1 / 3)) (2 / 3) (2 / 3) 0.
Proof.
  intros asort AS.
  destruct (two_scene asort AS (PSphere 3) (Refractor (fun _ => Fin (3 / 2))) (PSphere 20) Absorber inner_lamp) as (h & g1 & b1 & g2 & b2 & t & L1 & L2 & B1 & B2 & NW & PRO & SR & LIM); cbn [prim_ok capped optical]; auto; try lra; try discriminate.
  { intros wl _. exists (3 / 2). split; [reflexivity|lra]. }
  { intros c [<- | []]. split; [|reflexivity]. unfold ray_ok, line; cbn. do 2 (split; [reflexivity|]). split; [left|lra]. unfold unit, vdot; cbn. field. }
  set (comps := [Leaf g1 b1; Leaf g2 b2]) in *.
  destruct (proper_trace_ok asort AS _ _ _ _ 22 PRO) as (t' & T); [rewrite LIM; cbn; lia|].
  assert (H0 : first_hit asort comps (line 2 0 0 (- (1 / 3)) (2 / 3) (2 / 3)) 3 (s_id g1)).
  { assert (SQ : sqrt ((- (1 / 3) * 2 + 2 / 3 * 0 + 2 / 3 * 0) * (- (1 / 3) * 2 + 2 / 3 * 0 + 2 / 3 * 0) - (2 * 2 + 0 * 0 + 0 * 0 - 3 * 3)) = 7 / 3) by (apply sqrt_lem_1; lra).
    apply (inner_first asort AS g1 b1 _ 3 g2 b2 _ L1 L2); try lra. }
  destruct (start_row asort AS h t comps t' _ _ _ _ _ _ _ 3 (s_id g1) PRO SR T ltac:(lra) H0) as (w0 & rs & ER & RS & EE & TI & IX & WL & GE).
  assert (J0 : nth_error (rows_with_id 0 (f_rows (get_results t'))) 0 = Some w0) by (rewrite ER; reflexivity).
  destruct (advance asort AS _ _ _ _ _ _ 0%nat 0%nat w0 g1 PRO T J0) as (w1 & J1 & _); auto.
  { rewrite GE, LIM. discriminate. }
  { left; reflexivity. }
  { destruct L1 as (_ & _ & -> & _). discriminate. }
  { intros w' FO _ U D. apply (caught asort AS g1 b1 g2 b2 _ L2 w0 w' FO U D). revert EE. destruct (row_end w0) as [e1 e2 e3 e4]. unfold here, vset_w; cbn [vx vy vz vw]. intro E. injection E as -> -> ->. lra. }
  rewrite ER in J1. destruct rs as [|w1' rs]; [discriminate|]. exists h, t, comps, t', g1, w0, w1', rs.
  split; [exact PRO|]. split; [exact T|]. split; [exact ER|]. split; [left; reflexivity|]. split; [eapply leaf_ball; eauto; lra|]. split; [apply L1|]. split; [exact RS|]. split; [exact IX|].
  split; [unfold vdot; cbn; lra|]. split; [|split; [|exact TI]].
  - rewrite EE, TI. unfold pt, vadd, vscale; cbn. f_equal; lra.
  - rewrite EE. unfold pt, vsub, vopp, vadd, vscale, vdot; cbn. lra.
Qed.

(** ** in and out of a ball of index 39/25 *)
Definition outer_lamp : list col := [Col (line (-10) 3 0 1 0 0) 0 100 1 1 0].
Lemma crossing_case : forall asort, argsort_ok asort -> exists h t comps t' f w0 w1 w2 after,
  proper (fun _ _ => outer_lamp) h t comps /\ trace asort h (fun _ _ => outer_lamp) 22 t = TOk t' /\
  rows_with_id 0 (f_rows (get_results t')) = [] ++ w0 :: w1 :: w2 :: after /\ In f (flat_map surface_ids comps) /\ ball f (pt 0 0 0) 5 /\
  s_mat f = Refractor (fun _ => Fin (39 / 25)) /\ row_surf w0 = s_id f /\ row_surf w1 = s_id f /\ row_idx w0 = 1 /\
  row_tilt w0 = V4 1 0 0 0 /\ here (row_end w0) = V4 (-4) 3 0 1.
Proof.
  intros asort AS.
  destruct (two_scene asort AS (PSphere 5) (Refractor (fun _ => Fin (39 / 25))) (PSphere 20) Absorber outer_lamp) as (h & g1 & b1 & g2 & b2 & t & L1 & L2 & B1 & B2 & NW & PRO & SR & LIM); cbn [prim_ok capped optical]; auto; try lra; try discriminate.
  { intros wl _. exists (39 / 25). split; [reflexivity|lra]. }
  { intros c [<- | []]. split; [|reflexivity]. unfold ray_ok, line; cbn. do 2 (split; [reflexivity|]). split; [left|lra]. unfold unit, vdot; cbn. field. }
  set (comps := [Leaf g1 b1; Leaf g2 b2]) in *.
  destruct (proper_trace_ok asort AS _ _ _ _ 22 PRO) as (t' & T); [rewrite LIM; cbn; lia|].
  assert (H0 : first_hit asort comps (line (-10) 3 0 1 0 0) 6 (s_id g1)).
  { assert (SQ : sqrt ((1 * -10 + 0 * 3 + 0 * 0) * (1 * -10 + 0 * 3 + 0 * 0) - (-10 * -10 + 3 * 3 + 0 * 0 - 5 * 5)) = 4) by (apply sqrt_lem_1; lra).
    apply (inner_first asort AS g1 b1 _ 5 g2 b2 _ L1 L2); try lra. }
  destruct (start_row asort AS h t comps t' _ _ _ _ _ _ _ 6 (s_id g1) PRO SR T ltac:(lra) H0) as (w0 & rs & ER & RS & EE & TI & IX & WL & GE).
  assert (J0 : nth_error (rows_with_id 0 (f_rows (get_results t'))) 0 = Some w0) by (rewrite ER; reflexivity).
  pose proof PRO as ((_ & _ & ND) & _). pose proof (leaf_ball g1 5 _ L1 ltac:(lra)) as BL.
  assert (I1 : In g1 (flat_map surface_ids comps)) by (left; reflexivity).
  destruct (proper_legs asort AS _ _ _ _ _ _ PRO T) as (LG & _).
  assert (IN0 : In w0 (f_rows (get_results t'))) by (apply nth_error_In in J0; apply in_rows_with_id in J0; apply J0).
  destruct (advance asort AS _ _ _ _ _ _ 0%nat 0%nat w0 g1 PRO T J0) as (w1 & J1 & FO1 & BO1 & LG1 & WL1); auto.
  { rewrite GE, LIM. discriminate. }
  { destruct L1 as (_ & _ & -> & _). discriminate. }
  { intros w' FO _ U D. apply (caught asort AS g1 b1 g2 b2 _ L2 w0 w' FO U D). revert EE. destruct (row_end w0) as [e1 e2 e3 e4]. unfold here, vset_w; cbn [vx vy vz vw]. intro E. injection E as -> -> ->. lra. }
  destruct (ball_row asort AS _ _ _ _ _ _ PRO T g1 _ 5 w0 I1 BL IN0 RS) as (_ & UA & ZA & NA & _).
  assert (EA : vscale (/ 5) (vsub (here (row_end w0)) (pt 0 0 0)) = V4 (- (4 / 5)) (3 / 5) 0 0) by (rewrite EE; unfold pt, vsub, vopp, vadd, vscale; cbn; f_equal; field).
  rewrite EA in *.
  destruct (bounce_at _ g1 w0 w1 _ (fun _ => Fin (39 / 25)) ND I1 RS NA ltac:(apply L1) BO1) as (_ & n2 & X2 & RF & _). injection X2 as <-.
  cbv zeta in RF. pose proof LG1 as (U1 & D1 & _).
  assert (U0 : unit (row_tilt w0)) by (rewrite TI; unfold unit, vdot; cbn; ring).
  assert (DD : vdot (row_tilt w0) (V4 (- (4 / 5)) (3 / 5) 0 0) = - (4 / 5)) by (rewrite TI; unfold vdot; cbn; field).
  unfold next_index in RF. rewrite DD in RF. destruct (Rlt_dec 0 (- (4 / 5))) as [Y|_]; [lra|]. rewrite IX in RF.
  pose proof (sine_sq _ _ U0 UA) as S0. rewrite DD in S0. assert (SP : 0 <= vnorm (tangential (row_tilt w0) (V4 (- (4 / 5)) (3 / 5) 0 0))) by apply sqrt_pos.
  destruct RF as (X1 & SN & A1); [nra|].
  assert (Q1 : vdot (row_tilt w1) (V4 (- (4 / 5)) (3 / 5) 0 0) = - (12 / 13)).
  { assert (X : vdot (vscale 1 (tangential (row_tilt w0) (V4 (- (4 / 5)) (3 / 5) 0 0))) (vscale 1 (tangential (row_tilt w0) (V4 (- (4 / 5)) (3 / 5) 0 0))) =
      vdot (vscale (39 / 25) (tangential (row_tilt w1) (V4 (- (4 / 5)) (3 / 5) 0 0))) (vscale (39 / 25) (tangential (row_tilt w1) (V4 (- (4 / 5)) (3 / 5) 0 0)))) by (rewrite SN; reflexivity).
    rewrite !vdot_scale_l, !vdot_scale_r in X. pose proof (sine_sq _ _ U0 UA) as Y0. pose proof (sine_sq _ _ U1 UA) as Y1. unfold vnorm in Y0, Y1.
    rewrite sqrt_sqrt in Y0, Y1 by apply vdot_self_nonneg. rewrite Y0, Y1, DD in X. nra. }
  assert (OFF : 0 < ray_offset_value < 1 / 100) by (unfold ray_offset_value; lra). set (e := ray_offset_value) in *.
  assert (RA : exists a b c, a * a + b * b + c * c = 1 /\ - (4 / 5) * a + 3 / 5 * b = - (12 / 13) /\ Ray (here (row_start w1)) (row_tilt w1) = line (-4 + e * a) (3 + e * b) (0 + e * c) a b c).
  { destruct FO1 as (ST & _). fold e in ST. revert ST U1 D1 Q1 EE. destruct (row_tilt w1) as [a b c d]. intros ST U D Q1 EE. cbn [vw] in D. subst d. exists a, b, c. split; [unfold unit, vdot in U; cbn in U; lra|].
    split; [unfold vdot in Q1; cbn in Q1; lra|].
    unfold line. f_equal. rewrite ST. revert EE. destruct (row_end w0) as [e1 e2 e3 e4]. unfold here, vset_w, vadd, vscale; cbn [vx vy vz vw]. intro E. injection E as -> -> ->. f_equal; lra. }
  destruct RA as (a & b & c & N & QQ & RA).
  assert (HH : a * (-4 + e * a) + b * (3 + e * b) + c * (0 + e * c) = e - 60 / 13).
  { transitivity (e * (a * a + b * b + c * c) + 5 * (- (4 / 5) * a + 3 / 5 * b)); [field|rewrite N, QQ; field]. }
  assert (NN : (-4 + e * a) * (-4 + e * a) + (3 + e * b) * (3 + e * b) + (0 + e * c) * (0 + e * c) = 25 + e * e - 120 / 13 * e).
  { transitivity (25 + e * e * (a * a + b * b + c * c) + 10 * e * (- (4 / 5) * a + 3 / 5 * b)); [field|rewrite N, QQ; field]. }
  assert (SQ : sqrt ((a * (-4 + e * a) + b * (3 + e * b) + c * (0 + e * c)) * (a * (-4 + e * a) + b * (3 + e * b) + c * (0 + e * c)) - ((-4 + e * a) * (-4 + e * a) + (3 + e * b) * (3 + e * b) + (0 + e * c) * (0 + e * c) - 5 * 5)) = 60 / 13).
  { rewrite HH, NN. apply sqrt_lem_1; [| lra |]; [|field]. replace ((e - 60 / 13) * (e - 60 / 13) - (25 + e * e - 120 / 13 * e - 5 * 5)) with (60 / 13 * (60 / 13)) by field. lra. }
  assert (H1 : first_hit asort comps (line (-4 + e * a) (3 + e * b) (0 + e * c) a b c) (120 / 13 - e) (s_id g1)).
  { apply (inner_first asort AS g1 b1 _ 5 g2 b2 _ L1 L2); try lra.
    - rewrite HH, NN. replace ((e - 60 / 13) * (e - 60 / 13) - (25 + e * e - 120 / 13 * e - 5 * 5)) with (60 / 13 * (60 / 13)) by field. lra.
    - rewrite NN. nra. }
  destruct (leg_end _ _ _ _ _ _ LG1 RA H1) as (RS1 & E1).
  assert (IN1 : In w1 (f_rows (get_results t'))) by (apply nth_error_In in J1; apply in_rows_with_id in J1; apply J1).
  destruct (ball_row asort AS _ _ _ _ _ _ PRO T g1 _ 5 w1 I1 BL IN1 RS1) as (_ & UB & ZB & _ & EB).
  destruct (advance asort AS _ _ _ _ _ _ 0%nat 1%nat w1 g1 PRO T J1) as (w2 & J2 & _); auto.
  { destruct FO1 as (_ & G1). rewrite G1, GE, LIM. discriminate. }
  { destruct L1 as (_ & _ & -> & _). discriminate. }
  { intros w' FO _ U D. apply (caught asort AS g1 b1 g2 b2 _ L2 w1 w' FO U D). rewrite (on_ball _ _ _ (row_end w1) eq_refl UB ZB EB). lra. }
  rewrite ER in J1, J2. destruct rs as [|w1' [|w2' rs]]; try discriminate. injection J1 as ->. injection J2 as ->. exists h, t, comps, t', g1, w0, w1, w2, rs.
  split; [exact PRO|]. split; [exact T|]. split; [exact ER|]. split; [exact I1|]. split; [exact BL|]. split; [apply L1|]. split; [exact RS|]. split; [exact RS1|]. split; [exact IX|]. split; [exact TI|].
  rewrite EE. f_equal; lra.
Qed.
