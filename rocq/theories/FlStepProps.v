(** * FlStepProps: a ray that steps off a surface does not meet it again, with rounding *)
From Coq Require Import Reals List Bool Lra Lia Permutation.
Import ListNotations.
From Verif Require Import XR XRFacts Lin LinFacts Fl SpecFl FlFacts FlProps FlHits SpecFlHits FlHitsFacts FlHitsRoot FlHitsProps FlHitsOn FlHitsSure FlHitsSure2 FlStep SpecFlStep.
Open Scope R_scope.

Lemma abs_both : forall x e, Rabs x <= e -> - e <= x <= e.
Proof. intros x e H. pose proof (Rle_abs x). pose proof (Rle_abs (- x)). rewrite Rabs_Ropp in *. lra. Qed.

Section Step.
  Variable rnd : R -> R.
  Variables lo u eta : R.
  Hypothesis CL : clear lo u eta.
  Hypothesis UP : 0 < u.
  Hypothesis RW : rounds_within u eta rnd.
  Let U0 : 0 <= u. Proof. destruct CL as (_ & (H & _) & _). exact H. Qed.
  Let U1 : u <= / 1000000. Proof. destruct CL as (_ & (_ & H) & _). exact H. Qed.
  Let E0 : 0 <= eta. Proof. destruct CL as (_ & _ & (H & _)). exact H. Qed.
  Let E4 : eta <= u * lo ^ 4. Proof. destruct CL as (_ & _ & (_ & H)). exact H. Qed.
  Let L0 : 0 < lo. Proof. destruct CL as ((H & _) & _). exact H. Qed.
  Let L1 : lo <= / 1000000. Proof. destruct CL as ((_ & H) & _). lra. Qed.

  Lemma rdot4_exists : forall v w, exists x, rdot rnd (pairs v w) x.
  Proof.
    intros [a b c d] [a' b' c' d']. unfold pairs, coords. cbn. eexists.
    eapply Rdot_fma; [apply Permutation_refl|]. eapply Rdot_fma; [apply Permutation_refl|]. eapply Rdot_fma; [apply Permutation_refl|]. apply Rdot_mul.
  Qed.
  Lemma coord_moved : forall S t k a b, lo <= S -> Rabs k <= / lo ->
    Rabs (k * (rnd (a + rnd (t * b)) - (a + t * b))) <= 2.1 * u * (Rabs k * (Rabs a + Rabs (t * b))) + 0.1 * (u * S).
  Proof.
    intros S t k a b LS Kk.
    assert (Pj : Rabs (rnd (a + rnd (t * b)) - (a + t * b)) <= 2.1 * u * (Rabs a + Rabs (t * b)) + 2.1 * eta).
    { pose proof (RW (t * b)) as H1. pose proof (RW (a + rnd (t * b))) as H2. pose proof (Rabs_pos (t * b)) as P1. pose proof (Rabs_pos a) as P2.
      assert (B1 : Rabs (rnd (t * b)) <= 1.001 * Rabs (t * b) + eta).
      { replace (rnd (t * b)) with ((rnd (t * b) - t * b) + t * b) by ring. eapply Rle_trans; [apply abs_tri; [exact H1|apply Rle_refl]|].
        assert (u * Rabs (t * b) <= / 1000000 * Rabs (t * b)) by (apply Rmult_le_compat_r; lra). lra. }
      assert (B2 : Rabs (a + rnd (t * b)) <= Rabs a + (1.001 * Rabs (t * b) + eta)) by (apply abs_tri; [lra|auto]).
      replace (rnd (a + rnd (t * b)) - (a + t * b)) with ((rnd (a + rnd (t * b)) - (a + rnd (t * b))) + (rnd (t * b) - t * b)) by ring.
      eapply Rle_trans; [apply abs_tri; eassumption|].
      assert (u * Rabs (a + rnd (t * b)) <= u * (Rabs a + (1.001 * Rabs (t * b) + eta))) by (apply Rmult_le_compat_l; auto).
      assert (u * eta <= / 1000000 * eta) by (apply Rmult_le_compat_r; lra). assert (0 <= u * Rabs a) by (apply Rmult_le_pos; auto). assert (0 <= u * Rabs (t * b)) by (apply Rmult_le_pos; auto). lra. }
    pose proof (lo4 lo u eta CL) as (K1 & K2 & K3 & K4 & K5).
    eapply Rle_trans; [apply abs_mul_le; [apply Rle_refl|apply Pj]|].
    assert (EK : Rabs k * (2.1 * eta) <= 0.1 * (u * S)).
    { apply Rle_trans with (/ lo * (2.1 * eta)); [apply Rmult_le_compat_r; lra|]. apply (Rmult_le_reg_l lo); auto. replace (lo * (/ lo * (2.1 * eta))) with (2.1 * eta) by (field; lra).
      apply Rle_trans with (2.1 * (u * (/ 1000000 * (lo * lo)))); [apply Rmult_le_compat_l; [lra|]; eapply Rle_trans; [exact E4|]; apply Rmult_le_compat_l; nra|].
      assert (lo * (u * lo) <= lo * (u * S)) by (apply Rmult_le_compat_l; [lra|]; apply Rmult_le_compat_l; auto). nra. }
    assert (D : Rabs k * (2.1 * u * (Rabs a + Rabs (t * b)) + 2.1 * eta) = 2.1 * u * (Rabs k * (Rabs a + Rabs (t * b))) + Rabs k * (2.1 * eta)) by ring. lra.
  Qed.

  (** One coordinate, seen from the object, of the point after the step and of the direction *)
  Lemma row_stepped : forall r p v h x y S, 0 < h <= 1 -> rdot rnd (pairs r (fl_step rnd h p v)) x -> rdot rnd (pairs r v) y -> terms r p v h <= S -> lo <= S ->
    Rabs (vx r) <= / lo -> Rabs (vy r) <= / lo -> Rabs (vz r) <= / lo -> Rabs (vw r) <= / lo ->
    Rabs (x - (vdot r p + h * vdot r v)) <= 64 * u * S /\ h * Rabs (y - vdot r v) <= 16 * u * S /\
    Rabs (vdot r p) <= S /\ h * Rabs (vdot r v) <= S /\ Rabs (vdot r p + h * vdot r v) <= S.
  Proof.
    intros r p v h x y S (H0 & H1) X Y T LS Rx Ry Rz Rw. pose proof (lo4 lo u eta CL) as (K1 & K2 & K3 & K4 & K5). assert (S0 : 0 < S) by lra.
    assert (US : 0 <= u * S) by nra. assert (US2 : u * S <= / 1000000 * S) by (apply Rmult_le_compat_r; lra).
    assert (Et : eta <= / 1000000 * (u * S)). { eapply Rle_trans; [exact E4|]. apply Rle_trans with (u * (/ 1000000 * lo)); [apply Rmult_le_compat_l; lra|]. assert (u * lo <= u * S) by (apply Rmult_le_compat_l; lra). lra. }
    assert (T1 : asum (pairs r p) + h * asum (pairs r v) = terms r p v h). { unfold terms, pairs, coords. cbn. rewrite !Rabs_mult, (Rabs_right h) by lra. ring. }
    pose proof (asum_nonneg (pairs r p)) as A1. pose proof (asum_nonneg (pairs r v)) as A2.
    assert (A4 : 0 <= h * asum (pairs r v)) by (apply Rmult_le_pos; lra).
    assert (V1 : Rabs (vdot r p) <= asum (pairs r p)) by (rewrite <- rsum_pairs; apply rsum_abs).
    assert (V2 : Rabs (vdot r v) <= asum (pairs r v)) by (rewrite <- rsum_pairs; apply rsum_abs).
    assert (V3 : h * Rabs (vdot r v) <= h * asum (pairs r v)) by (apply Rmult_le_compat_l; lra).
    destruct (rdot4_exists r p) as [xp XP].
    assert (HA : Rabs h = h) by (apply Rabs_right; lra).
    destruct (row_close rnd lo u eta CL RW r p v h xp y S XP Y T LS Rx Ry Rz Rw) as (C1 & _ & _).
    { rewrite HA. apply Rle_trans with (eta * 2); [apply Rmult_le_compat_l; lra|lra]. }
    pose proof (rdot4 rnd u eta U0 E0 RW U1 _ _ _ XP) as EX. pose proof (rdot4 rnd u eta U0 E0 RW U1 _ _ _ Y) as EY. pose proof (rdot4 rnd u eta U0 E0 RW U1 _ _ _ X) as EZ.
    assert (EY2 : h * Rabs (y - vdot r v) <= 5 * (u * (h * asum (pairs r v))) + 8 * eta).
    { apply Rle_trans with (h * (5 * u * asum (pairs r v) + 8 * eta)); [apply Rmult_le_compat_l; lra|]. assert (h * (8 * eta) <= 1 * (8 * eta)) by (apply Rmult_le_compat_r; lra). lra. }
    assert (UA : u * (asum (pairs r p) + h * asum (pairs r v)) <= u * S) by (apply Rmult_le_compat_l; lra). 
    assert (UA1 : 0 <= u * asum (pairs r p)) by (apply Rmult_le_pos; lra). assert (UA2 : 0 <= u * (h * asum (pairs r v))) by (apply Rmult_le_pos; lra).
    assert (A5 : asum (pairs r (fl_step rnd h p v)) <= 1.001 * S).
    { assert (M : forall k a b, Rabs k <= / lo -> Rabs (k * rnd (a + rnd (h * b))) <= Rabs k * (Rabs a + Rabs (h * b)) + (2.1 * u * (Rabs k * (Rabs a + Rabs (h * b))) + 0.1 * (u * S))).
      { intros k a b Kk. replace (k * rnd (a + rnd (h * b))) with (k * (a + h * b) + k * (rnd (a + rnd (h * b)) - (a + h * b))) by ring.
        apply abs_tri; [|apply coord_moved; auto]. apply abs_mul_le; [lra|apply abs_tri; lra]. }
      pose proof (M _ (vx p) (vx v) Rx) as M1. pose proof (M _ (vy p) (vy v) Ry) as M2. pose proof (M _ (vz p) (vz v) Rz) as M3. pose proof (M _ (vw p) (vw v) Rw) as M4.
      assert (UT : u * terms r p v h <= u * S) by (apply Rmult_le_compat_l; auto). unfold terms in UT, T.
      unfold pairs, coords, fl_step, vround, vadd, vscale. cbn. lra. }
    assert (UA5 : u * asum (pairs r (fl_step rnd h p v)) <= u * (1.001 * S)) by (apply Rmult_le_compat_l; lra).
    split; [|split; [lra|split; [lra|split; [lra|]]]].
    - replace (x - (vdot r p + h * vdot r v)) with (((x - vdot r (fl_step rnd h p v)) + (vdot r (fl_step rnd h p v) - (xp + h * y))) + ((xp - vdot r p) + h * (y - vdot r v))) by ring.
      eapply Rle_trans; [apply abs_tri; [apply abs_tri; [exact EZ|exact C1]|apply abs_tri; [exact EX|rewrite Rabs_mult, HA; exact EY2]]|]. lra.
    - eapply Rle_trans; [apply abs_tri; [exact V1|rewrite Rabs_mult, HA; exact V3]|]. lra.
  Qed.

  Lemma sqr_stepped : forall x q S, 0 < S -> Rabs (x - q) <= 64 * u * S -> Rabs q <= S -> Rabs (x * x - q * q) <= 130 * u * (S * S).
  Proof.
    intros x q S S0 H Q. replace (x * x - q * q) with ((x - q) * (x - q + 2 * q)) by ring.
    assert (US2 : u * S <= / 1000000 * S) by (apply Rmult_le_compat_r; lra).
    assert (B : Rabs (x - q + 2 * q) <= 2.001 * S). { eapply Rle_trans; [apply abs_tri; [exact H|rewrite Rabs_mult, (Rabs_right 2) by lra; apply Rmult_le_compat_l; [lra|exact Q]]|]. lra. }
    eapply Rle_trans; [apply abs_mul_le; [exact H|exact B]|]. assert (0 <= u * (S * S)) by (apply Rmult_le_pos; nra). lra.
  Qed.
  Lemma mul_stepped : forall x q y w h S, 0 < S -> 0 < h -> Rabs (x - q) <= 64 * u * S -> Rabs q <= S -> h * Rabs (y - w) <= 16 * u * S -> h * Rabs w <= S ->
    h * Rabs (y * x - w * q) <= 81 * u * (S * S).
  Proof.
    intros x q y w h S S0 H0 X Q Y W. assert (US2 : u * S <= / 1000000 * S) by (apply Rmult_le_compat_r; lra). assert (P : 0 <= u * (S * S)) by (apply Rmult_le_pos; nra).
    assert (BX : Rabs x <= 1.001 * S) by (replace x with ((x - q) + q) by ring; eapply Rle_trans; [apply abs_tri; eassumption|lra]).
    assert (HA : Rabs h = h) by (apply Rabs_right; lra).
    rewrite <- HA, <- Rabs_mult. replace (h * (y * x - w * q)) with ((h * (y - w)) * x + (h * w) * (x - q)) by ring.
    eapply Rle_trans; [apply abs_tri; apply abs_mul_le; try eassumption; rewrite Rabs_mult, HA; eassumption|]. lra.
  Qed.

  (** all coordinates *)
  Lemma stepped : forall m p v h o2 v2 S, 0 < h <= 1 -> fl_image rnd m (fl_step rnd h p v) o2 -> fl_image rnd m v v2 -> reach m p v h S -> lo <= S -> entries_below m (/ lo) ->
    let P := mapply m p in let V := mapply m v in let Q := vadd P (vscale h V) in
    (Rabs (vx o2 - vx Q) <= 64 * u * S /\ Rabs (vx Q) <= S /\ h * Rabs (vx v2 - vx V) <= 16 * u * S /\ h * Rabs (vx V) <= S) /\
    (Rabs (vy o2 - vy Q) <= 64 * u * S /\ Rabs (vy Q) <= S /\ h * Rabs (vy v2 - vy V) <= 16 * u * S /\ h * Rabs (vy V) <= S) /\
    (Rabs (vz o2 - vz Q) <= 64 * u * S /\ Rabs (vz Q) <= S /\ h * Rabs (vz v2 - vz V) <= 16 * u * S /\ h * Rabs (vz V) <= S).
  Proof.
    intros m p v h o2 v2 S HH (X1 & X2 & X3 & _) (Y1 & Y2 & Y3 & _) (T1 & T2 & T3) LS EB. cbn zeta.
    destruct (EB (row0 m)) as (A1 & A2 & A3 & A4); auto. destruct (EB (row1 m)) as (B1 & B2 & B3 & B4); auto. destruct (EB (row2 m)) as (C1 & C2 & C3 & C4); auto.
    destruct (row_stepped _ p v h _ _ S HH X1 Y1 T1 LS A1 A2 A3 A4) as (P1 & P2 & _ & P3 & P4).
    destruct (row_stepped _ p v h _ _ S HH X2 Y2 T2 LS B1 B2 B3 B4) as (Q1 & Q2 & _ & Q3 & Q4).
    destruct (row_stepped _ p v h _ _ S HH X3 Y3 T3 LS C1 C2 C3 C4) as (R1 & R2 & _ & R3 & R4).
    cbn. tauto.
  Qed.

  (** *** Spheres *)
  Section Sphere.
    Variables (m : mat) (r h S : R) (p v o2 v2 : v4).
    Hypothesis HH : 0 < h <= 1.
    Hypothesis I1 : fl_image rnd m (fl_step rnd h p v) o2.
    Hypothesis I2 : fl_image rnd m v v2.
    Hypothesis RE : reach m p v h S.
    Hypothesis RS : 0 <= r <= S.
    Hypothesis LS : lo <= S.
    Hypothesis EB : entries_below m (/ lo).
    Let SS0 : 0 <= u * (S * S). Proof. apply Rmult_le_pos; nra. Qed.

    Lemma sphere_moved : Rabs (from_centre o2 - (from_centre (mapply m p) + 2 * (h * rate_from_centre m p v) + h * h * from_centre (mapply m v))) <= 390 * u * (S * S) /\
      h * Rabs ((vx v2 * vx o2 + vy v2 * vy o2 + vz v2 * vz o2) - (rate_from_centre m p v + h * from_centre (mapply m v))) <= 243 * u * (S * S) /\ from_centre o2 <= (2 * S) * (2 * S).
    Proof.
      destruct (stepped m p v h o2 v2 S HH I1 I2 RE LS EB) as ((X1 & X2 & X3 & X4) & (Y1 & Y2 & Y3 & Y4) & (Z1 & Z2 & Z3 & Z4)).
      unfold rate_from_centre, from_centre. set (P := mapply m p) in *. set (V := mapply m v) in *. cbn [vadd vscale vx vy vz] in *.
      assert (S0 : 0 < S) by lra. assert (H0 : 0 < h) by lra.
      pose proof (sqr_stepped _ _ S S0 X1 X2) as SX. pose proof (sqr_stepped _ _ S S0 Y1 Y2) as SY. pose proof (sqr_stepped _ _ S S0 Z1 Z2) as SZ.
      pose proof (mul_stepped _ _ _ _ h S S0 H0 X1 X2 X3 X4) as MX. pose proof (mul_stepped _ _ _ _ h S S0 H0 Y1 Y2 Y3 Y4) as MY. pose proof (mul_stepped _ _ _ _ h S S0 H0 Z1 Z2 Z3 Z4) as MZ.
      split; [|split].
      - match goal with |- Rabs ?e <= _ => replace e with (((vx o2 * vx o2 - (vx P + h * vx V) * (vx P + h * vx V)) + (vy o2 * vy o2 - (vy P + h * vy V) * (vy P + h * vy V))) + (vz o2 * vz o2 - (vz P + h * vz V) * (vz P + h * vz V))) by ring end.
        eapply Rle_trans; [apply abs_tri; [apply abs_tri|]; eassumption|]. lra.
      - match goal with |- _ * Rabs ?e <= _ => replace e with (((vx v2 * vx o2 - vx V * (vx P + h * vx V)) + (vy v2 * vy o2 - vy V * (vy P + h * vy V))) + (vz v2 * vz o2 - vz V * (vz P + h * vz V))) by ring end.
        eapply Rle_trans; [apply Rmult_le_compat_l; [lra|apply abs_tri; [apply abs_tri; apply Rle_refl|apply Rle_refl]]|]. lra.
      - assert (K : forall q, Rabs q <= S -> q * q <= S * S). { intros q Q. apply Rle_trans with (Rabs (q * q)); [apply Rle_abs|]. rewrite Rabs_mult. apply Rmult_le_compat; auto using Rabs_pos. }
        apply K in X2, Y2, Z2. apply abs_both in SX. apply abs_both in SY. apply abs_both in SZ.
        assert (u * (S * S) <= / 1000000 * (S * S)) by (apply Rmult_le_compat_r; nra). lra.
    Qed.

    Hypothesis V2 : lo * lo <= from_centre v2 <= / lo * / lo.
    Hypothesis ON : Rabs (from_centre (mapply m p) - r * r) <= 8192 * u * (S * S).

    Theorem sphere_left : 8192 * u * (S * S) <= h * rate_from_centre m p v -> forall t0 t1, fl_sphere_hits rnd r o2 v2 t0 t1 -> t0 < 0 /\ t1 < 0.
    Proof.
      intros OUT. destruct sphere_moved as (M1 & M2 & M3). assert (S0 : 0 < S) by lra.
      assert (VV : 0 <= h * h * from_centre (mapply m v)) by (unfold from_centre; apply Rmult_le_pos; nra).
      apply abs_both in M1. apply abs_both in ON.
      apply (sphere_behind rnd lo u eta CL UP RW o2 v2 r (2 * S)); auto; try lra.
      apply Rmult_le_reg_l with h; [lra|]. rewrite Rmult_0_r.
      rewrite <- (Rabs_right h) in M2 at 1 by lra. rewrite <- Rabs_mult in M2. apply abs_both in M2. lra.
    Qed.
    Theorem sphere_entered : 2 * (h * rate_from_centre m p v) + h * h * from_centre (mapply m v) <= - (16384 * u * (S * S)) ->
      ~ fl_sphere_miss rnd r o2 v2 /\ forall t0 t1, fl_sphere_hits rnd r o2 v2 t0 t1 -> t1 < 0 < t0.
    Proof.
      intros IN. destruct sphere_moved as (M1 & _ & M3). assert (S0 : 0 < S) by lra.
      apply abs_both in M1. apply abs_both in ON.
      apply (sphere_within rnd lo u eta CL UP RW o2 v2 r (2 * S)); auto; lra.
    Qed.
  End Sphere.

  (** *** The sides of cylinders *)
  Section Side.
    Variables (m : mat) (r h S : R) (p v o2 v2 : v4).
    Hypothesis HH : 0 < h <= 1.
    Hypothesis I1 : fl_image rnd m (fl_step rnd h p v) o2.
    Hypothesis I2 : fl_image rnd m v v2.
    Hypothesis RE : reach m p v h S.
    Hypothesis RS : 0 <= r <= S.
    Hypothesis LS : lo <= S.
    Hypothesis EB : entries_below m (/ lo).
    Let SS0 : 0 <= u * (S * S). Proof. apply Rmult_le_pos; nra. Qed.

    Lemma side_moved : Rabs (from_axis o2 - (from_axis (mapply m p) + 2 * (h * rate_from_axis m p v) + h * h * from_axis (mapply m v))) <= 390 * u * (S * S) /\
      h * Rabs ((vx v2 * vx o2 + vy v2 * vy o2) - (rate_from_axis m p v + h * from_axis (mapply m v))) <= 243 * u * (S * S) /\ from_axis o2 <= (2 * S) * (2 * S).
    Proof.
      destruct (stepped m p v h o2 v2 S HH I1 I2 RE LS EB) as ((X1 & X2 & X3 & X4) & (Y1 & Y2 & Y3 & Y4) & _).
      unfold rate_from_axis, from_axis. set (P := mapply m p) in *. set (V := mapply m v) in *. cbn [vadd vscale vx vy vz] in *.
      assert (S0 : 0 < S) by lra. assert (H0 : 0 < h) by lra.
      pose proof (sqr_stepped _ _ S S0 X1 X2) as SX. pose proof (sqr_stepped _ _ S S0 Y1 Y2) as SY.
      pose proof (mul_stepped _ _ _ _ h S S0 H0 X1 X2 X3 X4) as MX. pose proof (mul_stepped _ _ _ _ h S S0 H0 Y1 Y2 Y3 Y4) as MY.
      split; [|split].
      - match goal with |- Rabs ?e <= _ => replace e with ((vx o2 * vx o2 - (vx P + h * vx V) * (vx P + h * vx V)) + (vy o2 * vy o2 - (vy P + h * vy V) * (vy P + h * vy V))) by ring end.
        eapply Rle_trans; [apply abs_tri; eassumption|]. lra.
      - match goal with |- _ * Rabs ?e <= _ => replace e with ((vx v2 * vx o2 - vx V * (vx P + h * vx V)) + (vy v2 * vy o2 - vy V * (vy P + h * vy V))) by ring end.
        eapply Rle_trans; [apply Rmult_le_compat_l; [lra|apply abs_tri; apply Rle_refl]|]. lra.
      - assert (K : forall q, Rabs q <= S -> q * q <= S * S). { intros q Q. apply Rle_trans with (Rabs (q * q)); [apply Rle_abs|]. rewrite Rabs_mult. apply Rmult_le_compat; auto using Rabs_pos. }
        apply K in X2, Y2. apply abs_both in SX. apply abs_both in SY.
        assert (u * (S * S) <= / 1000000 * (S * S)) by (apply Rmult_le_compat_r; nra). nra.
    Qed.

    Hypothesis V2 : from_axis v2 <= / lo * / lo.
    Hypothesis ON : Rabs (from_axis (mapply m p) - r * r) <= 8192 * u * (S * S).

    Theorem side_left : 8192 * u * (S * S) <= h * rate_from_axis m p v -> forall t0 t1, fl_side_hits rnd r o2 v2 t0 t1 -> t0 < 0 /\ t1 < 0.
    Proof.
      intros OUT. destruct side_moved as (M1 & M2 & M3). assert (S0 : 0 < S) by lra.
      assert (VV : 0 <= h * h * from_axis (mapply m v)) by (unfold from_axis; apply Rmult_le_pos; nra).
      apply abs_both in M1. apply abs_both in ON.
      apply (side_behind rnd lo u eta CL UP RW o2 v2 r (2 * S)); auto; try lra.
      apply Rmult_le_reg_l with h; [lra|]. rewrite Rmult_0_r.
      rewrite <- (Rabs_right h) in M2 at 1 by lra. rewrite <- Rabs_mult in M2. apply abs_both in M2. lra.
    Qed.
    Theorem side_entered : 2 * (h * rate_from_axis m p v) + h * h * from_axis (mapply m v) <= - (16384 * u * (S * S)) ->
      ~ fl_side_miss rnd r o2 v2 /\ forall t0 t1, fl_side_hits rnd r o2 v2 t0 t1 -> t1 < 0 < t0.
    Proof.
      intros IN. destruct side_moved as (M1 & _ & M3). assert (S0 : 0 < S) by lra.
      apply abs_both in M1. apply abs_both in ON.
      apply (side_within rnd lo u eta CL UP RW o2 v2 r (2 * S)); auto; lra.
    Qed.
  End Side.

  (** *** Flat faces *)
  (** a number far from 0 keeps its sign when it is rounded *)
  Lemma rnd_keeps : forall x, 3 * eta <= Rabs x -> x <> 0 -> 0 < x * rnd x /\ Rabs x * / 2 <= Rabs (rnd x) <= Rabs x * 2.
  Proof.
    intros x X N. pose proof (RW x) as H. apply abs_both in H. assert (P : 0 < Rabs x) by (apply Rabs_pos_lt; auto).
    assert (u * Rabs x <= / 1000000 * Rabs x) by (apply Rmult_le_compat_r; lra).
    destruct (Rle_or_lt 0 x) as [G|G].
    - rewrite (Rabs_right x) in * by lra. assert (0 < rnd x) by lra. rewrite Rabs_right by lra. split; [apply Rmult_lt_0_compat; lra|lra].
    - rewrite (Rabs_left x) in * by lra. assert (rnd x < 0) by lra. rewrite Rabs_left by lra. split; [|lra].
      replace (x * rnd x) with ((- x) * (- rnd x)) by ring. apply Rmult_lt_0_compat; lra.
  Qed.
  Lemma opposite : forall a b z w, a * b < 0 -> 0 < a * z -> 0 < b * w -> z * w < 0.
  Proof.
    intros a b z w AB AZ BW. assert (P : 0 < (a * z) * (b * w)) by (apply Rmult_lt_0_compat; auto).
    destruct (Rlt_or_le (z * w) 0) as [|G]; auto. exfalso.
    assert (0 <= (- (a * b)) * (z * w)) by (apply Rmult_le_pos; lra). nra.
  Qed.
  Lemma quotient_negative : forall z w, u * lo * / 2 <= Rabs z -> Rabs w <= / lo * 2 -> z * w < 0 -> rnd (z / w) < 0.
  Proof.
    intros z w Z W N. pose proof (lo4 lo u eta CL) as (K1 & K2 & K3 & K4 & K5). assert (UL : 0 < u * lo) by nra.
    assert (W0 : w <> 0) by (intros ->; lra). assert (WP : 0 < Rabs w) by (apply Rabs_pos_lt; auto).
    assert (IB : / 2 * lo <= / Rabs w). { replace (/ 2 * lo) with (/ (/ lo * 2)) by (field; lra). apply Rinv_le_contravar; lra. }
    assert (Q : u * lo * / 2 * (/ 2 * lo) <= Rabs (z / w)).
    { unfold Rdiv. rewrite Rabs_mult, Rabs_inv. apply Rmult_le_compat; lra. }
    assert (E : 3 * eta <= u * lo * / 2 * (/ 2 * lo)).
    { apply Rle_trans with (3 * (u * (/ 1000000 * (lo * lo)))).
      - apply Rmult_le_compat_l; [lra|]. eapply Rle_trans; [exact E4|]. apply Rmult_le_compat_l; lra.
      - assert (0 < u * (lo * lo)) by (apply Rmult_lt_0_compat; nra). lra. }
    assert (P : 0 < u * lo * / 2 * (/ 2 * lo)) by (apply Rmult_lt_0_compat; lra).
    assert (SN : z / w < 0).
    { replace (z / w) with ((z * w) * / (w * w)) by (field; auto). assert (0 < w * w) by nra. assert (0 < / (w * w)) by (apply Rinv_0_lt_compat; auto).
      assert (0 < (- (z * w)) * / (w * w)) by (apply Rmult_lt_0_compat; lra). lra. }
    destruct (rnd_keeps (z / w)) as (R1 & _); [lra|lra|].
    destruct (Rlt_or_le (rnd (z / w)) 0); auto. exfalso. assert (0 <= (- (z / w)) * rnd (z / w)) by (apply Rmult_le_pos; lra). lra.
  Qed.
  Theorem face_left : forall r p v h x y k S, 0 < h <= 1 -> rdot rnd (pairs r (fl_step rnd h p v)) x -> rdot rnd (pairs r v) y -> terms r p v h <= S -> lo <= S ->
    Rabs (vx r) <= / lo -> Rabs (vy r) <= / lo -> Rabs (vz r) <= / lo -> Rabs (vw r) <= / lo -> Rabs y <= / lo ->
    Rabs (vdot r p - k) <= 32 * u * S -> 128 * u * S <= h * Rabs (vdot r v) ->
    forall t, fl_face_hit rnd k x y t -> t < 0.
  Proof.
    intros r p v h x y k S HH X Y T LS Rx Ry Rz Rw YL ON OUT t (NC & F).
    destruct (row_stepped r p v h x y S HH X Y T LS Rx Ry Rz Rw) as (A & B & _ & _ & _).
    apply abs_both in ON. apply abs_both in A. assert (US : u * lo <= u * S) by (apply Rmult_le_compat_l; lra). assert (UL : 0 < u * lo) by nra.
    rewrite <- (Rabs_right h) in B at 1 by lra. rewrite <- Rabs_mult in B. apply abs_both in B.
    apply isclose0_false in NC. unfold atol in NC. pose proof (lo4 lo u eta CL) as (K1 & K2 & K3 & K4 & K5).
    assert (E3 : 3 * eta <= Rabs y).
    { assert (LL : lo ^ 4 <= / 1000000 * / 1000000) by nra. assert (u * lo ^ 4 <= / 1000000 * lo ^ 4) by (apply Rmult_le_compat_r; lra). lra. }
    assert (EA : 3 * eta <= u * lo). { apply Rle_trans with (3 * (u * (/ 1000000 * lo))); [|lra]. apply Rmult_le_compat_l; [lra|]. eapply Rle_trans; [exact E4|]. apply Rmult_le_compat_l; lra. }
    assert (Y0 : y <> 0) by (intros ->; rewrite Rabs_R0 in NC; lra).
    assert (SGN : u * lo <= Rabs (x - k) /\ 0 < (x - k) * y).
    { destruct (Rle_or_lt 0 (vdot r v)) as [PV|PV].
      - rewrite (Rabs_right (vdot r v)) in OUT by lra. assert (PY : 0 < y) by (apply Rmult_lt_reg_l with h; lra).
        assert (G : u * lo <= x - k) by lra. rewrite Rabs_right by lra. split; auto. apply Rmult_lt_0_compat; lra.
      - rewrite (Rabs_left (vdot r v)) in OUT by lra. assert (NY : 0 < - y) by (apply Rmult_lt_reg_l with h; lra).
        assert (G : u * lo <= k - x) by lra. rewrite Rabs_left by lra. split; [lra|]. replace ((x - k) * y) with ((k - x) * - y) by ring. apply Rmult_lt_0_compat; lra. }
    destruct SGN as (DK & DS). replace (y + 0) with y in F by ring. destruct (rnd_keeps y E3 Y0) as (Y1 & Y2 & Y3).
    assert (D0 : x - k <> 0) by (intros E; rewrite E in DS; lra).
    assert (DK' : u * lo <= Rabs (k - x)) by (rewrite Rabs_minus_sym; auto).
    destruct (rnd_keeps (x - k)) as (Z1 & Z2 & Z3); [lra|auto|]. destruct (rnd_keeps (k - x)) as (W1 & W2 & W3); [lra|lra|].
    destruct F as [->|[->|(K & ->)]]; apply quotient_negative; try lra.
    - apply (opposite (k - x) y); auto. lra.
    - rewrite Rabs_Ropp. lra.
    - apply (opposite (- (x - k)) y); auto; lra.
    - rewrite Rabs_Ropp. replace x with (x - k) by lra. lra.
    - apply (opposite (- (x - k)) y); auto; try lra. rewrite K. rewrite Rminus_0_r. assert (0 < x * x); [|lra]. replace x with (x - k) by lra. nra.
  Qed.
End Step.
