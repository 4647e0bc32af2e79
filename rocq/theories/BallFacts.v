(** * BallFacts: what a ball of glass does to the rays of a trace *)
From Coq Require Import Reals Lra Lia List Bool ZArith Psatz.
Import ListNotations.
From Verif Require Import XR XRFacts Arr Lin LinFacts Ops OpsFacts SpecOptics Prim Csg Surf SpecGeom SpecTree SpecNormal CsgProps SurfFacts TreeFacts World SpecWorld Tracer SpecTrace
  PrimFacts2 TraceFacts3 TraceFacts5 TraceFacts6 TraceFacts7 TraceProps MirrorTrace SpecImages ImageFacts ImageFacts2 ImageFacts3 Components SpecComponents BuildFacts
  ComponentFacts ComponentFacts2 ComponentFacts3 SpecMotion MotionFacts MirrorFacts2 PrismLaw PrismFacts PrismProps SpecBall.
Open Scope R_scope.

Lemma snell_solve : forall k k' d d' n, vscale k (tangential d n) = vscale k' (tangential d' n) ->
  vscale k' d' = vadd (vscale k d) (vscale (k' * vdot d' n - k * vdot d n) n).
Proof.
  intros k k' d d' n E. unfold tangential in E. set (D := vdot d n) in *. set (D' := vdot d' n) in *. clearbody D D'.
  destruct d as [a1 a2 a3 a4], d' as [b1 b2 b3 b4], n as [n1 n2 n3 n4]. unfold vscale, vsub, vadd, vopp, vscale in *; cbn [vx vy vz vw] in *.
  injection E as E1 E2 E3 E4. f_equal; lra.
Qed.
Lemma end_at : forall w t, vw (row_tilt w) = 0 -> row_end w = vadd (row_start w) (vscale t (row_tilt w)) -> here (row_end w) = ray_at (Ray (here (row_start w)) (row_tilt w)) t.
Proof.
  intros w t D ->. revert D. unfold here, vset_w, ray_at. cbn [origin direction]. destruct (row_start w) as [s1 s2 s3 s4], (row_tilt w) as [d1 d2 d3 d4].
  unfold vadd, vscale; cbn [vx vy vz vw]. intros ->. f_equal; ring.
Qed.
Lemma ball_row : forall asort, argsort_ok asort -> forall gen h t comps fuel t', proper gen h t comps -> trace asort h gen fuel t = TOk t' ->
  forall f c r w, In f (flat_map surface_ids comps) -> ball f c r -> In w (f_rows (get_results t')) -> row_surf w = s_id f ->
  let b := vscale (/ r) (vsub (here (row_end w)) c) in
  vw c = 1 /\ unit b /\ vw b = 0 /\ world_normal f (here (row_end w)) = Some b /\ here (row_end w) = vadd c (vscale r b).
Proof.
  intros asort AS gen h t comps fuel t' PR TR f c r w IN (RP & EP & ISO & EC & NS) W SU. cbv zeta.
  pose proof PR as ((_ & _ & ND) & _ & _ & _ & PO). destruct (PO f IN) as (P1 & P2 & P3 & _).
  destruct (proper_legs asort AS gen h t comps fuel t' PR TR) as (A & _). destruct (A w W) as (U & D & x & X & EN & FH). rewrite SU in FH.
  pose proof (first_hit_at asort AS comps ND _ _ _ FH IN) as H. apply surf_hits_ends in H. rewrite EP in H. cbn [prim_hits] in H.
  assert (E : here (row_end w) = ray_at (Ray (here (row_start w)) (row_tilt w)) x) by (apply end_at; auto).
  assert (AF : affine (s_world f)) by apply ISO.
  assert (AO : affine (s_obj f)) by (eapply affine_inverse; eauto).
  assert (WC : vw c = 1) by (rewrite <- EC, affine_w; auto; reflexivity).
  set (q := mapply (s_obj f) (here (row_end w))).
  assert (WH : vw (here (row_end w)) = 1) by reflexivity.
  assert (WQ : vw q = 1) by (unfold q; rewrite affine_w; auto).
  assert (QE : mapply (s_world f) q = here (row_end w)) by (unfold q; apply (inverse_apply_r _ _ _ P3)).
  assert (M : moving (ray_map (s_obj f) (Ray (here (row_start w)) (row_tilt w)))).
  { apply local_moving; [split; [auto|split; auto]|]. split; [reflexivity|]. split; [exact D|]. cbn [direction]. unfold moving; cbn [direction]. intros (Z1 & Z2 & Z3).
    unfold unit, vdot in U. rewrite Z1, Z2, Z3, D in U. lra. }
  pose proof (sphere_hits_surface r _ x M H) as SF. rewrite ray_at_map, <- E in SF. fold q in SF. cbn [on_surface] in SF.
  destruct q as [q1 q2 q3 q4]. cbn [vx vy vz vw] in SF, WQ. subst q4.
  set (a1 := / r * q1). set (a2 := / r * q2). set (a3 := / r * q3).
  assert (UA : a1 * a1 + a2 * a2 + a3 * a3 = 1).
  { unfold a1, a2, a3. transitivity (/ r * / r * (q1 * q1 + q2 * q2 + q3 * q3)); [ring|]. rewrite SF. field. lra. }
  assert (EQ : V4 q1 q2 q3 1 = pt (r * a1) (r * a2) (r * a3)) by (unfold pt, a1, a2, a3; f_equal; field; lra).
  assert (PN : prim_normal (s_prim f) (V4 q1 q2 q3 1) = Some (V4 a1 a2 a3 0)) by (rewrite EP, EQ; apply sphere_normal_unit; auto).
  assert (UN : unit (V4 a1 a2 a3 0)) by (unfold unit, vdot; cbn [vx vy vz vw]; lra).
  pose proof (placed_normal f _ 1 _ NS ISO P3 PN UN eq_refl) as WN. rewrite QE in WN.
  assert (EB : vscale 1 (mapply (s_world f) (V4 a1 a2 a3 0)) = vscale (/ r) (vsub (here (row_end w)) c)).
  { rewrite <- QE, <- EC, <- mapply_sub, <- !mapply_scale. f_equal. unfold pt, vsub, vopp, vadd, vscale, a1, a2, a3; cbn [vx vy vz vw]. f_equal; ring. }
  rewrite EB in WN. split; [exact WC|]. split; [|split; [|split; [exact WN|]]].
  - rewrite <- EB. unfold unit. rewrite vdot_scale_l, vdot_scale_r. destruct ISO as (_ & _ & IS). rewrite IS by reflexivity. rewrite UN. ring.
  - rewrite <- EB. unfold vscale; cbn [vw]. assert (Z : vw (mapply (s_world f) (V4 a1 a2 a3 0)) = 0) by (rewrite affine_w; auto). rewrite Z. ring.
  - destruct (here (row_end w)) as [h1 h2 h3 h4], c as [c1 c2 c3 c4]. unfold vadd, vscale, vsub, vopp, vadd, vscale; cbn [vx vy vz vw]. f_equal; field; lra.
Qed.

Lemma square_pos_eq : forall x y, 0 < x -> 0 < y -> x * x = y * y -> x = y.
Proof. intros. nra. Qed.
(** into the ball at [a], through it along [t1], out of it at [b] *)
Lemma chord_law : forall n r L t0 t1 t2 a b, 0 < n -> 0 < r -> 0 < L -> unit a -> unit b -> unit t0 -> unit t1 -> unit t2 ->
  vscale r b = vadd (vscale r a) (vscale L t1) -> vdot t0 a < 0 -> vdot t1 a < 0 ->
  vscale 1 (tangential t0 a) = vscale n (tangential t1 a) ->
  (0 < vdot t1 b -> n * vnorm (tangential t1 b) < 1 -> vscale n (tangential t1 b) = vscale 1 (tangential t2 b) /\ 0 < vdot t2 b) ->
  vdot t1 b = - vdot t1 a /\ n * vnorm (tangential t1 b) < 1 /\ vdot t2 b = - vdot t0 a /\ t2 = turned_over t1 t0 /\
  n * n * (1 - vdot t1 a * vdot t1 a) = 1 - vdot t0 a * vdot t0 a.
Proof.
  intros n r L t0 t1 t2 a b N RP LP UA UB U0 U1 U2 EB A0 A1 SN OUT.
  pose proof (snell_solve _ _ _ _ _ SN) as S1. set (p := vdot t0 a) in *. set (q := vdot t1 a) in *.
  assert (EB' : b = vadd a (vscale (L / r) t1)).
  { transitivity (vscale (/ r) (vscale r b)); [destruct b; unfold vscale; cbn; f_equal; field; lra|]. rewrite EB. destruct a, t1; unfold vscale, vadd; cbn; f_equal; field; lra. }
  set (m := L / r) in *. assert (MP : 0 < m) by (apply Rdiv_lt_0_compat; auto).
  assert (BB : 1 = 1 + 2 * m * q + m * m).
  { unfold unit in UB. rewrite EB' in UB. rewrite vdot_add_l, !vdot_add_r, !vdot_scale_l, !vdot_scale_r in UB. rewrite (vdot_comm a t1) in UB. fold q in UB. unfold unit in *. rewrite UA, U1 in UB. lra. }
  assert (MQ : m = - 2 * q) by nra.
  assert (TB : vdot t1 b = - q). { rewrite EB', vdot_add_r, vdot_scale_r. fold q. unfold unit in U1. rewrite U1. lra. }
  assert (SQ : n * n * (1 - q * q) = 1 - p * p).
  { assert (X : vdot (vscale 1 (tangential t0 a)) (vscale 1 (tangential t0 a)) = vdot (vscale n (tangential t1 a)) (vscale n (tangential t1 a))) by (rewrite SN; reflexivity).
    rewrite !vdot_scale_l, !vdot_scale_r in X. pose proof (sine_sq t0 a U0 UA) as Y0. pose proof (sine_sq t1 a U1 UA) as Y1. unfold vnorm in Y0, Y1.
    rewrite sqrt_sqrt in Y0, Y1 by apply vdot_self_nonneg. rewrite Y0, Y1 in X. fold p q in X. lra. }
  pose proof (sine_sq t1 b U1 UB) as SB. rewrite TB in SB. set (sb := vnorm (tangential t1 b)) in *. assert (SB0 : 0 <= sb) by apply sqrt_pos.
  assert (LT : n * sb < 1) by nra.
  destruct (OUT ltac:(lra) LT) as (SO & B2). pose proof (snell_solve _ _ _ _ _ SO) as S2.
  assert (E2 : vdot t2 b = - p).
  { apply square_pos_eq; [exact B2|lra|].
    assert (X : vdot (vscale n (tangential t1 b)) (vscale n (tangential t1 b)) = vdot (vscale 1 (tangential t2 b)) (vscale 1 (tangential t2 b))) by (rewrite SO; reflexivity).
    rewrite !vdot_scale_l, !vdot_scale_r in X. pose proof (sine_sq t1 b U1 UB) as Y0. pose proof (sine_sq t2 b U2 UB) as Y1. unfold vnorm in Y0, Y1.
    rewrite sqrt_sqrt in Y0, Y1 by apply vdot_self_nonneg. rewrite Y0, Y1 in X. rewrite TB in X. lra. }
  split; [exact TB|]. split; [exact LT|]. split; [exact E2|]. split; [|exact SQ].
  rewrite E2, TB in S2. rewrite EB', MQ in S2. unfold turned_over.
  assert (T0 : t0 = vadd (vscale n t1) (vscale (p - n * q) a)).
  { revert S1. destruct t0 as [f1 f2 f3 f4], t1 as [d1 d2 d3 d4], a as [e1 e2 e3 e4]. unfold vscale, vadd; cbn [vx vy vz vw]. intro E. injection E as F1 F2 F3 F4. f_equal; lra. }
  assert (D01 : vdot t0 t1 = n + (p - n * q) * q).
  { rewrite T0 at 1. rewrite vdot_add_l, !vdot_scale_l. unfold unit in U1. rewrite U1, (vdot_comm a t1). fold q. ring. }
  rewrite D01. rewrite T0. clear - S2. destruct t2 as [c1 c2 c3 c4], t1 as [d1 d2 d3 d4], a as [e1 e2 e3 e4]. unfold vscale, vadd, vsub, vopp, vadd, vscale in *; cbn [vx vy vz vw] in *.
  injection S2 as F1 F2 F3 F4. f_equal; lra.
Qed.
