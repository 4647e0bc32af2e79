(** * PrismLaw: the optics of two plane faces at sixty degrees *)
From Coq Require Import Reals Lra Lia List Bool ZArith Psatz.
Import ListNotations.
From Verif Require Import XR XRFacts Lin LinFacts Ops OpsFacts SpecOptics Prim Csg Surf World Tracer SpecTrace SpecComponents ComponentFacts3
  SpecMotion MotionFacts SpecPrism.
Open Scope R_scope.

(** ** Angles *)
Definition bend (n r : R) : R := asin (n * sin r).
Lemma bend_sin : forall n r, -1 <= n * sin r <= 1 -> sin (bend n r) = n * sin r.
Proof. intros. unfold bend. apply sin_asin. auto. Qed.
Lemma bend_bound : forall n r, - (PI / 2) <= bend n r <= PI / 2.
Proof. intros. apply asin_bound. Qed.
Lemma bend_opp : forall n r, bend n (- r) = - bend n r.
Proof. intros. unfold bend. rewrite sin_neg, Ropp_mult_distr_r_reverse, asin_opp. auto. Qed.
Lemma sin_mono : forall x y, - (PI / 2) <= x <= PI / 2 -> - (PI / 2) <= y <= PI / 2 -> sin x <= sin y -> x <= y.
Proof. intros x y X Y H. destruct (Rle_dec x y); auto. exfalso. assert (sin y < sin x) by (apply sin_increasing_1; lra). lra. Qed.
Lemma sin_mono_lt : forall x y, - (PI / 2) <= x <= PI / 2 -> - (PI / 2) <= y <= PI / 2 -> sin x < sin y -> x < y.
Proof. intros x y X Y H. destruct (Rlt_dec x y); auto. exfalso. assert (sin y <= sin x) by (apply sin_incr_1; lra). lra. Qed.
Lemma bend_up : forall n r, 1 <= n -> 0 <= r <= PI / 2 -> n * sin r <= 1 -> r <= bend n r.
Proof.
  intros n r N R B. assert (0 <= sin r) by (apply sin_ge_0; pose proof PI_RGT_0; lra).
  apply sin_mono; [lra|apply bend_bound|]. rewrite bend_sin by nra. nra.
Qed.
(** the angles grow faster outside than inside *)
Lemma bend_spread : forall n r r', 1 <= n -> 0 <= r -> r <= r' -> r' <= PI / 2 -> n * sin r' <= 1 -> r' - r <= bend n r' - bend n r.
Proof.
  intros n r r' N R0 RR R1 B. pose proof PI_RGT_0 as PP.
  assert (S : sin r <= sin r') by (apply sin_incr_1; lra). assert (S0 : 0 <= sin r) by (apply sin_ge_0; lra).
  assert (E : sin (bend n r') - sin (bend n r) = n * (sin r' - sin r)) by (rewrite !bend_sin by nra; ring).
  pose proof (bend_up n r' N ltac:(lra) B) as U'. pose proof (bend_up n r N ltac:(lra) ltac:(nra)) as U.
  pose proof (bend_bound n r) as B0. pose proof (bend_bound n r') as B1.
  set (i := bend n r) in *. set (i' := bend n r') in *.
  rewrite (form4 i' i), (form4 r' r) in E.
  assert (C : cos ((i' + i) / 2) <= cos ((r' + r) / 2)) by (apply cos_decr_1; lra).
  assert (C0 : 0 <= cos ((i' + i) / 2)) by (apply cos_ge_0; lra).
  assert (D0 : 0 <= sin ((r' - r) / 2)) by (apply sin_ge_0; lra).
  destruct (Rle_lt_or_eq_dec _ _ C0) as [C1|C1].
  - assert (sin ((r' - r) / 2) <= sin ((i' - i) / 2)).
    { apply (Rmult_le_reg_l (cos ((i' + i) / 2))); auto.
      assert (cos ((i' + i) / 2) * sin ((r' - r) / 2) <= cos ((r' + r) / 2) * sin ((r' - r) / 2)) by (apply Rmult_le_compat_r; auto).
      assert (0 <= cos ((r' + r) / 2) * sin ((r' - r) / 2)) by (apply Rmult_le_pos; lra). nra. }
    assert ((r' - r) / 2 <= (i' - i) / 2); [|lra]. apply sin_mono; auto; lra.
  - (* grazing: both outer angles are pi/2 *)
    assert (i' + i = PI).
    { destruct (Req_dec (i' + i) PI); auto. exfalso. assert (0 < cos ((i' + i) / 2)); [|lra]. apply cos_gt_0; lra. }
    assert (i = PI / 2) by lra. assert (i' = PI / 2) by lra.
    assert (sin i = 1) by (rewrite H0; apply sin_PI2). assert (sin i' = 1) by (rewrite H1; apply sin_PI2).
    unfold i, i' in H2, H3. rewrite bend_sin in H2, H3 by nra.
    assert (sin r = sin r') by nra. assert (r = r'); [|lra].
    apply Rle_antisym; auto. apply sin_mono; lra.
Qed.
Lemma bend_sum : forall n r1 r2, 1 <= n -> r1 + r2 = PI / 3 -> - (PI / 2) <= r1 <= PI / 2 -> - (PI / 2) <= r2 <= PI / 2 ->
  -1 <= n * sin r1 <= 1 -> -1 <= n * sin r2 <= 1 -> PI / 3 <= bend n r1 + bend n r2.
Proof.
  intros n r1 r2 N SR B1 B2 S1 S2. pose proof PI_RGT_0 as PP.
  assert (K : forall a b, a + b = PI / 3 -> a < 0 -> - (PI / 2) <= a -> b <= PI / 2 -> -1 <= n * sin b <= 1 -> PI / 3 <= bend n a + bend n b).
  { intros a b AB A A1 B C. pose proof (bend_spread n (- a) b N ltac:(lra) ltac:(lra) B ltac:(lra)) as H. rewrite bend_opp in H. lra. }
  destruct (Rlt_dec r1 0) as [A|A]; [apply K; auto; lra|]. destruct (Rlt_dec r2 0) as [A'|A'].
  - rewrite Rplus_comm. apply K; auto; lra.
  - pose proof (bend_up n r1 N ltac:(lra) ltac:(lra)). pose proof (bend_up n r2 N ltac:(lra) ltac:(lra)). lra.
Qed.
Lemma sin_strict : forall i x, - (PI / 2) <= i <= PI / 2 -> sin i = x -> -1 < x < 1 -> - (PI / 2) < i < PI / 2.
Proof.
  intros i x B E X. split.
  - destruct (Req_dec i (- (PI / 2))) as [Q|Q]; [|lra]. rewrite Q, sin_neg, sin_PI2 in E. lra.
  - destruct (Req_dec i (PI / 2)) as [Q|Q]; [|lra]. rewrite Q, sin_PI2 in E. lra.
Qed.
(** ** The least deviation *)
Lemma bend_least : forall n r1 r2, 1 <= n -> r1 + r2 = PI / 3 -> - (PI / 2) <= r1 <= PI / 2 -> - (PI / 2) <= r2 <= PI / 2 ->
  -1 < n * sin r1 < 1 -> -1 < n * sin r2 < 1 ->
  n < 2 /\ 2 * asin (n / 2) <= bend n r1 + bend n r2 /\ (1 < n -> (bend n r1 + bend n r2 = 2 * asin (n / 2) <-> r1 = r2)).
Proof.
  intros n r1 r2 N SR B1 B2 S1 S2. pose proof PI_RGT_0 as PP. pose proof sqrt3 as (K2 & K).
  assert (N2 : n < 2).
  { assert (M : forall r, PI / 6 <= r <= PI / 2 -> -1 < n * sin r < 1 -> n < 2).
    { intros r R S. assert (1 / 2 <= sin r) by (rewrite <- sin_PI6; apply sin_incr_1; lra). nra. }
    destruct (Rle_dec (PI / 6) r1); [apply (M r1); auto; lra|apply (M r2); auto; lra]. }
  split; auto.
  pose proof (bend_sum n r1 r2 N SR B1 B2 ltac:(lra) ltac:(lra)) as SUM.
  pose proof (bend_sin n r1 ltac:(lra)) as E1. pose proof (bend_sin n r2 ltac:(lra)) as E2.
  pose proof (bend_bound n r1) as D1. pose proof (bend_bound n r2) as D2.
  set (i1 := bend n r1) in *. set (i2 := bend n r2) in *.
  assert (I1 : - (PI / 2) < i1 < PI / 2) by (apply (sin_strict _ _ D1 E1); lra).
  assert (I2 : - (PI / 2) < i2 < PI / 2) by (apply (sin_strict _ _ D2 E2); lra).
  assert (A : sin i1 + sin i2 = n * cos ((r1 - r2) / 2)).
  { rewrite E1, E2, <- Rmult_plus_distr_l, (form3 r1 r2), SR. replace (PI / 3 / 2) with (PI / 6) by field. rewrite sin_PI6. field. }
  assert (D : sin i1 - sin i2 = n * (sqrt 3 * sin ((r1 - r2) / 2))).
  { rewrite E1, E2, <- Rmult_minus_distr_l, (form4 r1 r2), SR. replace (PI / 3 / 2) with (PI / 6) by field. rewrite cos_PI6. field. }
  rewrite form3 in A. rewrite form4 in D. replace ((i1 + i2) / 2) with ((i1 + i2) / 2) in * by auto.
  set (u := (i1 + i2) / 2) in *. set (v := (i1 - i2) / 2) in *. set (w := (r1 - r2) / 2) in *.
  assert (U : PI / 6 <= u <= PI / 2) by (unfold u; lra). assert (V : - (PI / 2) < v < PI / 2) by (unfold v; lra).
  assert (W : - (PI / 2) <= w <= PI / 2) by (unfold w; lra).
  assert (CU : 2 * cos u <= sqrt 3).
  { assert (cos u <= cos (PI / 6)) by (apply cos_decr_1; lra). rewrite cos_PI6 in H. lra. }
  assert (CU0 : 0 <= cos u) by (apply cos_ge_0; lra).
  assert (CV : 0 < cos v) by (apply cos_gt_0; lra). assert (CW : 0 <= cos w) by (apply cos_ge_0; lra).
  (* |sin w| <= |sin v| *)
  assert (SQ : n * sin w * (n * sin w) <= sin v * sin v).
  { assert (n * (sqrt 3 * sin w) = 2 * cos u * sin v) by lra.
    assert (3 * (n * sin w * (n * sin w)) = 2 * cos u * (2 * cos u) * (sin v * sin v)).
    { rewrite <- K2. transitivity (n * (sqrt 3 * sin w) * (n * (sqrt 3 * sin w))); [ring|]. rewrite H. ring. }
    assert (2 * cos u * (2 * cos u) <= 3) by nra. assert (0 <= sin v * sin v) by nra. nra. }
  assert (PV := sin2_cos2 v). assert (PW := sin2_cos2 w). unfold Rsqr in PV, PW.
  assert (SW : sin w * sin w <= n * sin w * (n * sin w)).
  { assert (0 <= (n * n - 1) * (sin w * sin w)) by (apply Rmult_le_pos; [nra|apply Rle_0_sqr]). lra. }
  assert (CC : cos v * cos v <= cos w * cos w) by lra.
  assert (CVW : cos v <= cos w) by (apply Rsqr_incr_0_var; auto).
  assert (LOW : n / 2 <= sin u).
  { apply (Rmult_le_reg_r (cos v)); auto. assert (n * cos v <= n * cos w) by (apply Rmult_le_compat_l; lra). lra. }
  assert (AS : - (PI / 2) <= asin (n / 2) <= PI / 2) by apply asin_bound.
  assert (SAS : sin (asin (n / 2)) = n / 2) by (apply sin_asin; lra).
  assert (UU : bend n r1 + bend n r2 = 2 * u) by (fold i1 i2; unfold u; lra).
  split; [change (2 * asin (n / 2) <= i1 + i2); replace (i1 + i2) with (2 * u) by (unfold u; lra);
    assert (asin (n / 2) <= u) by (apply sin_mono; lra); lra|].
  intros N1. change (i1 + i2 = 2 * asin (n / 2) <-> r1 = r2). replace (i1 + i2) with (2 * u) by (unfold u; lra). split; intro H.
  - assert (SU : sin u = n / 2) by (replace u with (asin (n / 2)) by lra; auto).
    assert (CE : cos v = cos w) by (rewrite SU in A; apply (Rmult_eq_reg_l n); lra). rewrite CE in PV.
    assert (Z : (n * n - 1) * (sin w * sin w) <= 0) by lra.
    assert (Z0 : sin w * sin w <= 0).
    { apply (Rmult_le_reg_l (n * n - 1)); [|lra]. assert (0 < (n - 1) * (n + 1)) by (apply Rmult_lt_0_compat; lra). lra. }
    assert (SW0 : sin w = 0). { apply Rsqr_0_uniq. apply Rle_antisym; [exact Z0|apply Rle_0_sqr]. }
    assert (w = 0); [|unfold w in *; lra].
    apply Rle_antisym; apply sin_mono; try lra; rewrite sin_0; lra.
  - assert (w = 0) by (unfold w; lra). assert (i1 = i2) by (unfold i1, i2; rewrite H; auto). assert (v = 0) by (unfold v; lra).
    assert (SU : sin u = n / 2). { rewrite H0, H2, cos_0 in A. lra. }
    assert (u = asin (n / 2)); [|lra]. apply Rle_antisym; apply sin_mono; lra.
Qed.
