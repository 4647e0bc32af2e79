(** * SkewExamples: a skew ray through a ball of glass *)
From Coq Require Import Reals List Bool ZArith Lra Lia Psatz.
Import ListNotations.
From Verif Require Import XR XRFacts Arr Lin LinFacts Ops OpsFacts SpecOptics Prim Csg Surf SpecGeom SpecTree SpecNormal CsgProps PrimFacts2 SurfFacts TreeFacts World SpecWorld Tracer SpecTrace
  TraceFacts3 TraceFacts5 TraceFacts6 TraceFacts7 TraceFacts8 TraceFacts9 TraceProps SpecCrossing Crossing CrossingProps CrossingExamples MirrorExamples PrismExamples2 PrismExamples3 MediumExamples
  SpecMotion SpecSymmetry ImageExamples SpecSkew SkewFacts SkewFacts2 SkewFacts3.
Open Scope R_scope.

Lemma ball_chord : forall g k m x y z a b c, leaf_as g (PSphere k) m -> k <> 0 -> a * a + b * b + c * c = 1 ->
  let h := a * x + b * y + c * z in let D := h * h - (x * x + y * y + z * z - k * k) in 0 < D ->
  surf_hits g (line x y z a b c) = [Fin (- h - sqrt D); Fin (- h + sqrt D)].
Proof.
  intros g k m x y z a b c L K U h D P. pose proof (sqrt_lt_R0 D P) as SP. pose proof (sqrt_sqrt D ltac:(lra)) as SS. apply chord_is.
  - apply L.
  - split; [reflexivity|]. split; [reflexivity|]. intros (X & Y & Z). cbn in X, Y, Z. rewrite X, Y, Z in U. lra.
  - destruct L as (_ & -> & _). split; exact Logic.I.
  - lra.
  - intro t. rewrite line_at, (leaf_placed _ _ _ _ L) by reflexivity. cbn [solid vx vy vz].
    assert (E : (x + t * a) * (x + t * a) + (y + t * b) * (y + t * b) + (z + t * c) * (z + t * c) - k * k = (t + h) * (t + h) - sqrt D * sqrt D).
    { rewrite SS. unfold D. transitivity (t * t * (a * a + b * b + c * c) + 2 * t * h + (x * x + y * y + z * z) - k * k); [unfold h; ring|]. rewrite U. ring. }
    set (s := sqrt D) in *. split; intro H; nra.
Qed.
Definition skew_ray : list col := [Col (line (-5) (-6) (-1) (3 / 5) (4 / 5) 0) 0 100 1 1 0].
Lemma skew_case : forall asort, argsort_ok asort -> exists h t comps t' w0 w1 after,
  proper (fun _ _ => skew_ray) h t comps /\ trace asort h (fun _ _ => skew_ray) 22 t = TOk t' /\
  rows_with_id 0 (f_rows (get_results t')) = w0 :: w1 :: after /\
  (forall s, In s (flat_map surface_ids comps) -> round_about_x s \/ s_mat s = Absorber) /\
  (exists s, In s (flat_map surface_ids comps) /\ s_id s = row_surf w0 /\ s_mat s = Refractor (fun _ => Fin (3 / 2))) /\
  twist w0 = 4 / 5.
Proof.
  intros asort AS.
  destruct (two_scene asort AS (PSphere 3) (Refractor (fun _ => Fin (3 / 2))) (PSphere 20) Absorber skew_ray) as (h & g1 & b1 & g2 & b2 & t & L1 & L2 & B1 & B2 & NW & PRO & SR & LIM); cbn [prim_ok capped optical]; auto; try lra; try discriminate.
  { intros wl _. exists (3 / 2). split; [reflexivity|lra]. }
  { intros c [<- | []]. split; [|reflexivity]. unfold ray_ok, line; cbn. do 2 (split; [reflexivity|]). split; [left|lra]. unfold unit, vdot; cbn. field. }
  set (comps := [Leaf g1 b1; Leaf g2 b2]) in *.
  destruct (proper_trace_ok asort AS _ _ _ _ 22 PRO) as (t' & T); [rewrite LIM; cbn; lia|].
  pose proof PRO as ((SHP & _ & ND) & _). change (flat_map surface_ids comps) with [g1; g2] in ND.
  assert (OFF : 0 < ray_offset_value < 1 / 100) by (unfold ray_offset_value; lra).
  assert (SRC : nth_error (source_rays (fun _ _ => skew_ray) t) 0 = Some (Col (line (-5) (-6) (-1) (3 / 5) (4 / 5) 0) 0 100 1 1 0)) by (rewrite SR; reflexivity).
  assert (S1 : surf_hits g1 (line (-5) (-6) (-1) (3 / 5) (4 / 5) 0) = [Fin 5; Fin (53 / 5)]).
  { rewrite (ball_chord g1 3 _ (-5) (-6) (-1) (3 / 5) (4 / 5) 0 L1) by lra.
    replace (sqrt _) with (14 / 5) by (symmetry; apply sqrt_lem_1; lra). f_equal; [f_equal; lra|f_equal; f_equal; lra]. }
  assert (H0 : first_hit asort comps (line (-5) (-6) (-1) (3 / 5) (4 / 5) 0) 5 (s_id g1)).
  { exists 0%nat, 0%nat. split.
    - exists (Leaf g1 b1). cbn [nth_error comps shape_intersect fst snd]. rewrite S1. cbn. repeat split; lra.
    - intros i k u sid (s & I & K & S & U). unfold comps in I. destruct i as [|[|i]]; cbn in I; [injection I as <-|injection I as <-|destruct i; discriminate]; cbn [shape_intersect fst snd] in K, S.
      + rewrite S1 in K. destruct k as [|[|k]]; cbn in K; [injection K as <-; right; split; auto; right; split; auto|injection K as <-; left; lra|destruct k; discriminate].
      + left. destruct (Rle_lt_dec u 5) as [LE|]; auto. exfalso. apply nth_error_In in K. apply surf_hits_ends in K.
        pose proof (leaf_obj _ _ _ L2) as EO. destruct L2 as (_ & EP & _). rewrite EP, EO in K.
        assert (E : ray_map mid (line (-5) (-6) (-1) (3 / 5) (4 / 5) 0) = line (-5) (-6) (-1) (3 / 5) (4 / 5) 0) by (unfold ray_map, line; rewrite !mapply_mid; reflexivity). rewrite E in K.
        assert (M : moving (line (-5) (-6) (-1) (3 / 5) (4 / 5) 0)) by (unfold moving, line; cbn; lra).
        pose proof (sphere_hits_surface 20 _ u M K) as Q. rewrite line_at in Q. cbn [on_surface vx vy vz] in Q. nra. }
  assert (NE : rows_with_id 0 (f_rows (get_results t')) <> []).
  { intro X. apply (no_row asort AS _ _ _ _ _ comps T SHP 0%nat _ SRC) in X. destruct X as [X|X].
    - unfold stopped, line, vnorm in X. cbn [c_ray direction] in X. unfold vdot in X; cbn [vx vy vz vw] in X.
      replace (3 / 5 * (3 / 5) + 4 / 5 * (4 / 5) + 0 * 0 + 0 * 0) with 1 in X by field. rewrite sqrt_1 in X. unfold atol in X. lra.
    - destruct H0 as (x & y & R & _). apply (X _ _ _ _ R). }
  destruct (rows_with_id 0 (f_rows (get_results t'))) as [|w0 rs] eqn:ER; [contradiction|]. clear NE.
  assert (J0 : nth_error (rows_with_id 0 (f_rows (get_results t'))) 0 = Some w0) by (rewrite ER; reflexivity).
  destruct (proper_bounces asort AS _ _ _ _ _ _ PRO T 0%nat _ eq_refl) as (BF & BB & _). destruct (BF w0 J0) as (c0 & C0 & FR).
  rewrite SRC in C0. injection C0 as <-. destruct FR as (S0 & D0 & X0 & W0 & G0 & _). cbn [c_ray c_idx c_wl c_gen line origin direction] in *.
  destruct (proper_legs asort AS _ _ _ _ _ _ PRO T) as (LG & _).
  assert (LG0 : leg asort comps w0) by (apply LG, (in_rows_with_id 0 _ w0); apply nth_error_In in J0; exact J0).
  assert (HS : here (row_start w0) = V4 (-5) (-6) (-1) 1) by (rewrite S0, here_trim by reflexivity; reflexivity).
  assert (R0 : Ray (here (row_start w0)) (row_tilt w0) = line (-5) (-6) (-1) (3 / 5) (4 / 5) 0) by (rewrite HS, D0; reflexivity).
  destruct (leg_end _ _ _ _ _ _ LG0 R0 H0) as (RS0 & E0).
  assert (EW0 : here (row_end w0) = V4 (-2) (-2) (-1) 1) by (rewrite E0, line_at; f_equal; field).
  destruct (advance asort AS _ _ _ _ _ _ 0%nat 0%nat w0 g1 PRO T J0) as (w1 & J1 & _); auto.
  { rewrite G0, LIM. discriminate. }
  { left; reflexivity. }
  { destruct L1 as (_ & _ & -> & _). discriminate. }
  { intros w' (ST & _) _ U D. assert (RA : exists a b c, a * a + b * b + c * c = 1 /\ Ray (here (row_start w')) (row_tilt w') =
      line (-2 + ray_offset_value * a) (-2 + ray_offset_value * b) (-1 + ray_offset_value * c) a b c).
    { revert ST U D EW0. destruct (row_tilt w') as [a b c d]. intros ST U D EW0. cbn [vw] in D. subst d. exists a, b, c. split; [unfold unit, vdot in U; cbn in U; lra|].
      unfold line. f_equal. rewrite ST. revert EW0. destruct (row_end w0) as [e1 e2 e3 e4]. unfold here, vset_w, vadd, vscale; cbn [vx vy vz vw]. intro E. injection E as -> -> ->. reflexivity. }
    destruct RA as (a & b & c & N & ->). set (e := ray_offset_value) in *.
    set (r := line (-2 + e * a) (-2 + e * b) (-1 + e * c) a b c).
    destruct (propagate_first asort AS comps (Col r 0 0 0 0 0)) as [(_ & NH)|(q & sid & _ & FH)]; [|eauto]. exfalso. cbn [c_ray] in NH.
    set (hh := a * (-2 + e * a) + b * (-2 + e * b) + c * (-1 + e * c)).
    set (DD := hh * hh - ((-2 + e * a) * (-2 + e * a) + (-2 + e * b) * (-2 + e * b) + (-1 + e * c) * (-1 + e * c) - 20 * 20)).
    assert (AB : -1 <= a <= 1 /\ -1 <= b <= 1 /\ -1 <= c <= 1) by (repeat split; nra).
    assert (P1 : (-2 + e * a) * (-2 + e * a) + (-2 + e * b) * (-2 + e * b) + (-1 + e * c) * (-1 + e * c) < 40).
    { assert (-1/100 <= e * a <= 1/100) by nra. assert (-1/100 <= e * b <= 1/100) by nra. assert (-1/100 <= e * c <= 1/100) by nra. nra. }
    assert (P2 : hh * hh < DD) by (unfold DD; lra). assert (P3 : 0 < DD) by nra.
    assert (P4 : 0 < - hh + sqrt DD).
    { pose proof (sqrt_lt_R0 DD P3). pose proof (sqrt_sqrt DD ltac:(lra)). nra. }
    apply (NH 1%nat 1%nat (- hh + sqrt DD) (s_id g2)). exists (Leaf g2 b2). split; [reflexivity|]. cbn [shape_intersect fst snd].
    unfold r. rewrite (ball_chord g2 20 _ _ _ _ a b c L2) by (auto; lra). split; [reflexivity|]. split; [reflexivity|exact P4]. }
  rewrite ER in J1. destruct rs as [|w1' rs]; [discriminate|]. exists h, t, comps, t', w0, w1', rs.
  split; [exact PRO|]. split; [exact T|]. split; [exact ER|]. split; [|split].
  - intros s [<- | [<- | []]]; [left|right; apply L2]. apply axis_round.
    + apply L1.
    + destruct L1 as (_ & _ & _ & -> & _). split; [reflexivity|]. split; [exists mid; split; apply mmul_mid_l|]. intros u v _ _. rewrite !mapply_mid. reflexivity.
    + destruct L1 as (_ & -> & _). discriminate.
    + destruct L1 as (_ & _ & _ & -> & _). rewrite mapply_mid. split; reflexivity.
    + destruct L1 as (_ & -> & _). intro X. destruct (X 3 eq_refl).
  - exists g1. split; [left; reflexivity|]. split; [auto|apply L1].
  - unfold twist. rewrite X0, D0. revert HS. destruct (row_start w0) as [s1 s2 s3 s4]. unfold here, vset_w; cbn [vx vy vz vw]. intro E. injection E as -> -> ->. field.
Qed.
