(** * MediumExamples3: two pieces of glass that touch *)
From Coq Require Import Reals List Bool ZArith Lra Lia Psatz.
Import ListNotations.
From Verif Require Import XR XRFacts Arr Lin LinFacts SpecOptics Prim Csg Surf SpecGeom SpecTree SpecNormal CsgProps SurfFacts TreeFacts World SpecWorld Tracer SpecTrace
  TraceFacts5 TraceFacts7 TraceProps SpecCrossing Crossing CrossingProps CrossingExamples SpecMedium NormalSides MediumFacts MediumProps PrismExamples2 PrismExamples3 MediumExamples.
Open Scope R_scope.

Definition block (lo hi : R) : prim := PCube (-5, -5, lo) (5, 5, hi).
Definition axial (c : R) : ray := flat 0 c 0 1.
Lemma block_hits : forall g m lo hi c, lo < hi -> leaf_as g (block lo hi) m -> surf_hits g (axial c) = [Fin (lo - c); Fin (hi - c)].
Proof.
  intros g m lo hi c LH L. apply chord_is.
  - apply L.
  - split; [reflexivity|]. split; [reflexivity|]. intros (_ & _ & Z). cbn in Z. lra.
  - rewrite (leaf_obj _ _ _ L). destruct L as (_ & EP & _). rewrite EP. unfold axial, flat, ray_map. rewrite !mapply_mid. split; [|exact Logic.I]. cbn [clear_ray block direction vx vy vz].
    split; [left; reflexivity|]. split; [left; reflexivity|]. right. rewrite Rabs_R1. unfold atol. lra.
  - lra.
  - intro t. unfold axial. rewrite flat_at, (leaf_placed _ _ _ _ L) by reflexivity. cbn [solid block vx vy vz]. unfold between. rewrite !Rmin_left, !Rmax_right by lra. split; lra.
Qed.
Lemma block_normal : forall g m lo hi z, leaf_as g (block lo hi) m -> 1 <= lo -> lo + 1 <= hi -> hi <= 5 -> z = lo \/ z = hi ->
  world_normal g (V4 0 0 z 1) = Some (V4 0 0 (if Req_EM_T z lo then -1 else 1) 0).
Proof.
  intros g m lo hi z L LO LH HI Z. unfold world_normal. rewrite (leaf_obj _ _ _ L). destruct L as (_ & EP & _ & _ & EN). rewrite EP, EN, mapply_mid. cbn [prim_normal block]. unfold cube_normal. cbn [vx vy vz].
  rewrite !Rmin_left, !Rmax_right by lra. unfold cube_normal_axis.
  assert (IC : forall v b, Rabs (v - b) > 1 / 2 -> Rabs b <= 5 -> isclose v b = false).
  { intros v b D B. unfold isclose. apply Bool.not_true_iff_false. rewrite rleb_true. unfold atol, rtol. intro J. lra. }
  rewrite !(IC 0) by (try (unfold Rabs; repeat destruct Rcase_abs; lra)).
  assert (IS : forall v, isclose v v = true). { intro v. unfold isclose. apply rleb_true. rewrite Rminus_diag_eq by reflexivity. rewrite Rabs_R0. unfold atol, rtol. pose proof (Rabs_pos v). lra. }
  assert (NU : forall v, vdot v v = 1 -> vnormalize v = Some v).
  { intros v V. unfold vnormalize. destruct (Req_EM_T (vdot v v) 0) as [Q|_]; [lra|]. unfold vnorm. rewrite V, sqrt_1, Rinv_1. f_equal. destruct v; unfold vscale; cbn. f_equal; ring. }
  destruct Z as [-> | ->].
  - rewrite (IC lo hi), (IS lo) by (unfold Rabs; repeat destruct Rcase_abs; lra). destruct (Req_EM_T lo lo) as [_|Q]; [|contradiction].
    rewrite NU by (unfold vdot; cbn; ring). cbn beta iota. rewrite NU by (vsimp; ring). cbn beta iota. f_equal. vsimp. f_equal; ring.
  - rewrite (IS hi). destruct (Req_EM_T hi lo) as [Q|_]; [lra|].
    rewrite NU by (unfold vdot; cbn; ring). cbn beta iota. rewrite NU by (vsimp; ring). cbn beta iota. f_equal. vsimp. f_equal; ring.
Qed.
Section Touching.
  Variables (asort : list xr -> list nat) (g1 g2 : surf) (b1 b2 : box).
  Hypotheses (AS : argsort_ok asort) (L1 : leaf_as g1 (block 1 2) water) (L2 : leaf_as g2 (block 2 3) water) (ND : NoDup (map s_id [g1; g2])).
  Let comps := [Leaf g1 b1; Leaf g2 b2].
  Lemma report_cases : forall c i k t sid, reports asort comps (axial c) i k t sid ->
    0 < t /\ ((i = 0%nat /\ sid = s_id g1 /\ (k = 0%nat /\ t = 1 - c \/ k = 1%nat /\ t = 2 - c)) \/ (i = 1%nat /\ sid = s_id g2 /\ (k = 0%nat /\ t = 2 - c \/ k = 1%nat /\ t = 3 - c))).
  Proof.
    intros c i k t sid (s & I & K & S & T). split; auto.
    destruct i as [|[|i]]; cbn in I; [injection I as <-|injection I as <-|destruct i; discriminate]; cbn [shape_intersect fst snd] in K, S.
    - left. rewrite (block_hits g1 water 1 2 c ltac:(lra) L1) in K. split; auto. destruct k as [|[|k]]; cbn in K, S; [| |destruct k; discriminate]; injection K as <-; injection S as <-; auto.
    - right. rewrite (block_hits g2 water 2 3 c ltac:(lra) L2) in K. split; auto. destruct k as [|[|k]]; cbn in K, S; [| |destruct k; discriminate]; injection K as <-; injection S as <-; auto.
  Qed.
  Lemma hit_first : forall c, c < 1 -> first_hit asort comps (axial c) (1 - c) (s_id g1).
  Proof.
    intros c C. exists 0%nat, 0%nat. split.
    - exists (Leaf g1 b1). cbn [nth_error shape_intersect fst snd]. rewrite (block_hits g1 water 1 2 c ltac:(lra) L1). cbn. repeat split; lra.
    - intros i k t sid R. apply report_cases in R. destruct R as (T & [(-> & _ & [(-> & ->)|(-> & ->)])|(-> & _ & [(-> & ->)|(-> & ->)])]); try (left; lra). right. split; auto.
  Qed.
  Lemma hit_second : forall c, 1 < c < 2 -> first_hit asort comps (axial c) (2 - c) (s_id g1).
  Proof.
    intros c C. exists 0%nat, 1%nat. split.
    - exists (Leaf g1 b1). cbn [nth_error shape_intersect fst snd]. rewrite (block_hits g1 water 1 2 c ltac:(lra) L1). cbn. repeat split; lra.
    - intros i k t sid R. apply report_cases in R. destruct R as (T & [(-> & _ & [(-> & ->)|(-> & ->)])|(-> & _ & [(-> & ->)|(-> & ->)])]); try lra; try (left; lra); right; split; auto; lia.
  Qed.
  Lemma hit_third : forall c, 2 < c < 3 -> first_hit asort comps (axial c) (3 - c) (s_id g2).
  Proof.
    intros c C. exists 1%nat, 1%nat. split.
    - exists (Leaf g2 b2). cbn [nth_error shape_intersect fst snd]. rewrite (block_hits g2 water 2 3 c ltac:(lra) L2). cbn. repeat split; lra.
    - intros i k t sid R. apply report_cases in R. destruct R as (T & [(-> & _ & [(-> & ->)|(-> & ->)])|(-> & _ & [(-> & ->)|(-> & ->)])]); try lra. right. split; auto.
  Qed.
  Lemma straight_on : forall w w' lo hi z, leaf_as g1 (block lo hi) water -> 1 <= lo -> lo + 1 <= hi -> hi <= 5 -> z = lo \/ z = hi -> here (row_end w) = V4 0 0 z 1 -> row_surf w = s_id g1 ->
    SpecTrace.bounce [g1; g2] w w' -> unit (row_tilt w') -> vw (row_tilt w') = 0 -> row_tilt w = V4 0 0 1 0 ->
    row_tilt w' = V4 0 0 1 0 /\ row_idx w' = if Req_EM_T z lo then 4 / 3 else 1.
  Proof.
    intros w w' lo hi z L LO LH HI Z H RS (g & n & G & E & NO & UN & B) U D T.
    assert (g = g1) by (apply (same_surface [g1; g2]); auto; [left; reflexivity|congruence]). subst g.
    rewrite H, (block_normal g1 water lo hi z) in NO by auto. injection NO as <-. destruct L1 as (_ & _ & EM & _). rewrite EM in B. unfold water in B. destruct B as (m & M & R & _). injection M as <-.
    set (k := if Req_EM_T z lo then -1 else 1) in *. assert (KV : (z = lo /\ k = -1) \/ (z <> lo /\ k = 1)) by (unfold k; destruct (Req_EM_T z lo); auto). clearbody k.
    assert (K2 : k * k = 1) by (destruct KV as [(_ & ->)|(_ & ->)]; ring).
    assert (DN : vdot (row_tilt w) (V4 0 0 k 0) = k) by (rewrite T; unfold vdot; cbn; ring).
    assert (TA : tangential (row_tilt w) (V4 0 0 k 0) = V4 0 0 0 0).
    { unfold tangential. rewrite DN, T. vsimp. f_equal; try ring. transitivity (1 - k * k); [ring|rewrite K2; ring]. }
    cbv zeta in R. rewrite TA, DN in R.
    assert (NV : vnorm (V4 0 0 0 0) = 0). { unfold vnorm, vdot; cbn. replace (0 * 0 + 0 * 0 + 0 * 0 + 0 * 0) with 0 by ring. apply sqrt_0. }
    rewrite NV, Rmult_0_r in R. unfold next_index in R. rewrite DN in R. set (n2 := if Rlt_dec 0 k then world_index else 4 / 3) in *.
    assert (N2 : n2 = (if Req_EM_T z lo then 4 / 3 else 1)) by (unfold n2; destruct KV as [(KZ & KV)|(KZ & KV)]; destruct (Req_EM_T z lo); try contradiction; destruct (Rlt_dec 0 k); try lra; reflexivity).
    assert (P2 : 0 < n2) by (rewrite N2; destruct (Req_EM_T z lo); lra). destruct (R P2) as (RI & RT & RS'). split; [|congruence].
    destruct (row_tilt w') as [x y s v]. cbn [vw] in D. subst v. unfold tangential in RT. vsimp. unfold vscale, vsub, vadd, vopp, vdot in RT. cbn in RT. injection RT as E1 E2 E3.
    unfold vdot in RS'. cbn in RS'. unfold unit, vdot in U. cbn in U.
    assert (x = 0) by nra. assert (y = 0) by nra. subst x y. f_equal. destruct KV as [(_ & KV)|(_ & KV)]; subst k; destruct (Rlt_dec 0 _); nra.
  Qed.
End Touching.
Definition up_ray : list col := [Col (axial 0) 0 100 1 1 0].
Lemma touching_case : forall asort, argsort_ok asort -> exists h t comps t' w s,
  proper (fun _ _ => up_ray) h t comps /\ trace asort h (fun _ _ => up_ray) 22 t = TOk t' /\ In w (f_rows (get_results t')) /\
  In s comps /\ of_glass s (fun _ => Fin (4 / 3)) /\ row_idx w = 1 /\ vz (row_end w) = 3 /\ (forall q, 0 < q < 3 - (2 + ray_offset_value) -> inside s (ray_at (way w) q)) /\
  (forall n, medium comps (row_wl w) (here (row_end w)) n -> n = 4 / 3) /\ ~ index_true comps w.
Proof.
  intros asort AS.
  destruct (two_scene asort AS (block 1 2) water (block 2 3) water up_ray) as (h & g1 & b1 & g2 & b2 & t & L1 & L2 & B1 & B2 & NW & PRO & SR & LIM); cbn [prim_ok capped optical block water]; auto; try lra; try discriminate.
  { intros wl _. exists (4 / 3). split; [reflexivity|lra]. }
  { intros wl _. exists (4 / 3). split; [reflexivity|lra]. }
  { intros c [<- | []]. split; [|reflexivity]. unfold ray_ok, axial, flat; cbn. do 2 (split; [reflexivity|]). split; [left|lra]. unfold unit, vdot; cbn. ring. }
  set (comps := [Leaf g1 b1; Leaf g2 b2]) in *.
  destruct (proper_trace_ok asort AS _ _ _ _ 22 PRO) as (t' & T); [rewrite LIM; cbn; lia|].
  pose proof PRO as ((SHP & _ & ND) & _). change (flat_map surface_ids comps) with [g1; g2] in ND.
  assert (OFF : 0 < ray_offset_value < 1 / 100) by (unfold ray_offset_value; lra).
  assert (SRC : nth_error (source_rays (fun _ _ => up_ray) t) 0 = Some (Col (axial 0) 0 100 1 1 0)) by (rewrite SR; reflexivity).
  pose proof (hit_first asort g1 g2 b1 b2 L1 L2 0 ltac:(lra)) as H0. pose proof (hit_second asort g1 g2 b1 b2 L1 L2 (1 + ray_offset_value) ltac:(lra)) as H1. pose proof (hit_third asort g1 g2 b1 b2 L1 L2 (2 + ray_offset_value) ltac:(lra)) as H2.
  fold comps in H0, H1, H2.
  assert (NE : rows_with_id 0 (f_rows (get_results t')) <> []).
  { intro X. apply (no_row asort AS _ _ _ _ _ comps T SHP 0%nat _ SRC) in X. destruct X as [X|X].
    - unfold stopped, axial, flat, vnorm in X. cbn [c_ray direction] in X. unfold vdot in X; cbn [vx vy vz vw] in X.
      replace (0 * 0 + 0 * 0 + 1 * 1 + 0 * 0) with 1 in X by ring. rewrite sqrt_1 in X. unfold atol in X. lra.
    - destruct H0 as (x & y & R & _). apply (X _ _ _ _ R). }
  destruct (rows_with_id 0 (f_rows (get_results t'))) as [|w0 rs] eqn:ER; [contradiction|]. clear NE.
  assert (J0 : nth_error (rows_with_id 0 (f_rows (get_results t'))) 0 = Some w0) by (rewrite ER; reflexivity).
  destruct (proper_bounces asort AS _ _ _ _ _ _ PRO T 0%nat _ eq_refl) as (BF & BB & _). destruct (BF w0 J0) as (c0 & C0 & FR).
  rewrite SRC in C0. injection C0 as <-. destruct FR as (S0 & D0 & X0 & W0 & G0 & _). cbn [c_ray c_idx c_wl c_gen axial flat origin direction] in *.
  destruct (proper_legs asort AS _ _ _ _ _ _ PRO T) as (LG & _).
  assert (LG0 : leg asort comps w0) by (apply LG, (in_rows_with_id 0 _ w0); apply nth_error_In in J0; exact J0).
  assert (R0 : way w0 = axial 0) by (unfold way; rewrite S0, D0, here_trim by reflexivity; reflexivity).
  destruct (leg_end _ _ _ _ _ _ LG0 R0 H0) as (RS0 & E0).
  assert (NEXT : forall w z, (z = 1 \/ z = 2) -> here (row_end w) = V4 0 0 z 1 -> row_surf w = s_id g1 -> row_tilt w = V4 0 0 1 0 -> forall w', follows w w' -> SpecTrace.bounce [g1; g2] w w' -> unit (row_tilt w') -> vw (row_tilt w') = 0 ->
     way w' = axial (z + ray_offset_value) /\ row_tilt w' = V4 0 0 1 0 /\ row_idx w' = if Req_EM_T z 1 then 4 / 3 else 1).
  { intros w z Z EW RS TI w' FO BO U D. destruct (straight_on g1 g2 L1 ND w w' 1 2 z L1) as (TI' & IX); auto; try lra. split; [|auto]. unfold way, axial, flat. rewrite TI'. f_equal.
    destruct FO as (-> & _). rewrite TI'. clear - EW. destruct (row_end w) as [x y zz v]. unfold here, vset_w in EW. cbn [vx vy vz] in EW. injection EW as -> -> ->. unfold here, vset_w, vadd, vscale; cbn [vx vy vz vw]. f_equal; ring. }
  assert (EW0 : here (row_end w0) = V4 0 0 1 1) by (rewrite E0; unfold axial; rewrite flat_at; f_equal; ring).
  assert (I1 : In g1 [g1; g2]) by (left; reflexivity).
  destruct (advance asort AS _ _ _ _ _ _ 0%nat 0%nat w0 g1 PRO T J0) as (w1 & J1 & FO1 & BO1 & LG1 & WL1); auto.
  { rewrite G0, LIM. discriminate. }
  { destruct L1 as (_ & _ & -> & _). discriminate. }
  { intros w' FO BO U D. destruct (NEXT w0 1 ltac:(auto) EW0 RS0 D0 w' FO BO U D) as (WE & _). fold (way w'). rewrite WE. eauto. }
  destruct (NEXT w0 1 ltac:(auto) EW0 RS0 D0 w1 FO1 BO1) as (R1 & D1 & X1); [apply LG1|apply LG1|].
  destruct (leg_end _ _ _ _ _ _ LG1 R1 H1) as (RS1 & E1).
  assert (EW1 : here (row_end w1) = V4 0 0 2 1) by (rewrite E1; unfold axial; rewrite flat_at; f_equal; ring).
  destruct (advance asort AS _ _ _ _ _ _ 0%nat 1%nat w1 g1 PRO T J1) as (w2 & J2 & FO2 & BO2 & LG2 & WL2); auto.
  { destruct FO1 as (_ & ->). rewrite G0, LIM. discriminate. }
  { destruct L1 as (_ & _ & -> & _). discriminate. }
  { intros w' FO BO U D. destruct (NEXT w1 2 ltac:(auto) EW1 RS1 D1 w' FO BO U D) as (WE & _). fold (way w'). rewrite WE. eauto. }
  destruct (NEXT w1 2 ltac:(auto) EW1 RS1 D1 w2 FO2 BO2) as (R2 & D2 & X2); [apply LG2|apply LG2|].
  destruct (Req_EM_T 2 1) as [Q|_]; [lra|].
  destruct (leg_end _ _ _ _ _ _ LG2 R2 H2) as (RS2 & E2).
  assert (EW2 : here (row_end w2) = V4 0 0 3 1) by (rewrite E2; unfold axial; rewrite flat_at; f_equal; ring).
  assert (SH : forall g b lo hi, leaf_as g (block lo hi) water -> of_glass (Leaf g b) (fun _ => Fin (4 / 3))).
  { intros g b lo hi L. split; [cbn; destruct L as (_ & -> & _); reflexivity|]. intros f [<- | []]. apply L. }
  assert (IN2 : forall z, 2 <= z <= 3 -> inside (Leaf g2 b2) (V4 0 0 z 1)).
  { intros z Z. cbn [inside]. rewrite (leaf_placed _ _ _ _ L2) by reflexivity. cbn [solid block vx vy vz]. unfold between. rewrite !Rmin_left, !Rmax_right by lra. lra. }
  assert (MED : forall z n, 2 <= z <= 3 -> medium comps (row_wl w2) (V4 0 0 z 1) n -> n = 4 / 3).
  { intros z n Z [(s & g & I & G & _ & E)|(N & _)].
    - assert (g = (fun _ => Fin (4 / 3))); [|subst g; cbv beta in E; injection E as <-; reflexivity].
      destruct I as [<- | [<- | []]]; [apply (of_glass_same _ _ _ (has_surface _) G (SH g1 b1 1 2 L1))|apply (of_glass_same _ _ _ (has_surface _) G (SH g2 b2 2 3 L2))].
    - exfalso. apply (N (Leaf g2 b2) (fun _ => Fin (4 / 3))); [right; left; reflexivity|apply (SH g2 b2 2 3 L2)|apply IN2; exact Z]. }
  exists h, t, comps, t', w2, (Leaf g2 b2). split; [exact PRO|]. split; [exact T|]. split.
  { apply nth_error_In in J2. apply in_rows_with_id in J2. apply J2. }
  split; [right; left; reflexivity|]. split; [apply (SH g2 b2 2 3 L2)|]. split; [exact X2|]. split.
  { clear - EW2. destruct (row_end w2) as [x y z v]. unfold here, vset_w in EW2. cbn [vx vy vz] in *. congruence. }
  split; [|split].
  - intros q Q. rewrite R2. unfold axial. rewrite flat_at. replace (0 + q * 0) with 0 by ring. apply IN2. lra.
  - intros n. rewrite EW2. apply MED. lra.
  - intros (len & LEN & EN & (L & M)). assert (LE : len = 3 - (2 + ray_offset_value)).
    { pose proof LG2 as (U & WD & _). assert (X := end_at w2 len WD EN). rewrite EW2, R2 in X. unfold axial in X. rewrite flat_at in X. injection X as _ X. lra. }
    destruct (avoid L 0 len LEN) as (q & Q & N). specialize (M q Q N). cbv beta in M. rewrite R2 in M. unfold axial in M. rewrite flat_at in M. replace (0 + q * 0) with 0 in M by ring. apply MED in M; [|lra]. rewrite X2 in M. lra.
Qed.
