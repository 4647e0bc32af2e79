(** * FlHitsBowl: rounded hits of the curved part of a paraboloid *)
From Coq Require Import Reals List Bool ZArith Permutation Lra Lia Psatz.
Import ListNotations.
From Verif Require Import XR XRFacts Lin Fl SpecFl FlFacts FlProps FlHits SpecFlHits FlHitsFacts FlHitsRoot FlHitsProps FlHitsOn.
Open Scope R_scope.

Section Bowl.
  Variable rnd : R -> R.
  Variables lo u eta : R.
  Hypothesis CL : clear lo u eta.
  Hypothesis RW : rounds_within u eta rnd.
  Let U0 : 0 <= u. Proof. destruct CL as (_ & (H & _) & _). exact H. Qed.
  Let U1 : u <= / 1000000. Proof. destruct CL as (_ & (_ & H) & _). exact H. Qed.
  Let E0 : 0 <= eta. Proof. destruct CL as (_ & _ & (H & _)). exact H. Qed.
  Let L0 : 0 < lo. Proof. destruct CL as ((H & _) & _). exact H. Qed.
  Let L9 : lo <= / 1000000000. Proof. destruct CL as ((_ & H) & _). exact H. Qed.

  Lemma bowl_one : forall f o d t, either (fl_bowl_hits rnd f o d) t -> exists a q cc, rdot rnd (pairs2 d d) a /\ rdot rnd (pairs2 o d) q /\ rdot rnd (pairs2 o o) cc /\ isclose a 0 = false /\
    one_root rnd a (rnd (rnd (2 * q) - rnd (rnd (4 * f) * vz d))) (rnd (cc - rnd (rnd (4 * f) * vz o))) (rnd (rnd (2 * a) + 0)) t.
  Proof. intros r o d t (t' & [(a & b & c & (q & cc & H1 & H2 & H3 & H4 & -> & ->) & F) | (a & b & c & (q & cc & H1 & H2 & H3 & H4 & -> & ->) & F)]); exists a, q, cc; repeat (split; auto); apply either_root in F; apply F. Qed.
  Theorem bowl_on : forall m f o d o' d' t S, fl_image rnd m o o' -> fl_image rnd m d d' -> either (fl_bowl_hits rnd f o' d') t ->
    reach m o d t S -> lo <= f <= S -> entries_below m (/ lo) -> from_axis d' <= / lo * / lo -> Rabs (vz d') <= / lo ->
    let p := mapply m (fl_move rnd o d t) in
    Rabs (from_axis p - 4 * f * vz p) <= 32768 * u * ((S + f * Rabs (vz d') / sqrt (from_axis d')) * (S + f * Rabs (vz d') / sqrt (from_axis d'))).
  Proof.
    intros m f o d o' d' t S IO ID EI RE (FL & FS) EB D2 DZ. cbn zeta. assert (LS : lo <= S) by lra.
    destruct (bowl_one _ _ _ _ EI) as (a & q & cc & H1 & H2 & H3 & NC & F).
    destruct (sum2 d' d') as (R1 & _ & A1 & N1). destruct (sum2 o' d') as (R2 & A2 & _ & N2). destruct (sum2 o' o') as (R3 & _ & A3 & N3).
    destruct (o_norm rnd lo u eta CL RW m o d o' t S IO RE LS) as (_ & NO & OZ). assert (DD : vdot (cut2 d') (cut2 d') = from_axis d') by (unfold vdot, from_axis; cbn; ring).
    pose proof (vnorm_sqr (cut2 d')) as SD. pose proof (vnorm_nonneg (cut2 d')) as PD. pose proof (inv_lo lo u eta CL) as (I1 & I2 & I3 & I4).
    assert (SQ : sqrt (from_axis d') = vnorm (cut2 d')) by (unfold vnorm; rewrite DD; auto). rewrite SQ.
    assert (ND : vnorm (cut2 d') <= / lo) by (apply le_of_sqr; [lra|rewrite SD, DD; auto]).
    assert (D1 : lo * lo <= vdot (cut2 d') (cut2 d')) by (apply (not_close rnd lo u eta CL RW _ _ a H1); auto; rewrite N1; lia).
    rewrite <- SD in D1. set (s := vnorm (cut2 d')) in *. assert (LD : lo <= s) by nra. assert (S0 : 0 < s) by lra.
    set (z := vz d') in *. set (X := f * Rabs z / s) in *. pose proof (Rabs_pos z) as Z0.
    assert (X0 : 0 <= X) by (unfold X, Rdiv; apply Rmult_le_pos; [apply Rmult_le_pos; lra|left; apply Rinv_0_lt_compat; auto]).
    assert (SX : s * X = f * Rabs z) by (unfold X; field; lra).
    set (M := 3 * S + 4 * X). assert (M0 : 0 < M) by (unfold M; lra). assert (ML : lo <= M) by (unfold M; lra).
    destruct (far lo u eta CL s M D1 S0 ND ML) as (F1 & F2 & F3 & F4 & F5).
    assert (SM : s * M = 3 * (s * S) + 4 * (s * X)) by (unfold M; ring). assert (sS : 0 < s * S) by nra. assert (sX : 0 <= s * X) by nra.
    assert (MM : 9 * (S * S) <= M * M) by (unfold M; nra). assert (SS : 0 < S * S) by nra. assert (PM : 0 < s * M) by lra. assert (PMM : 0 < M * M) by nra.
    (* the coefficients *)
    set (O := cut2 o') in *. set (D := cut2 d') in *. pose proof (vnorm_nonneg O) as PO. pose proof (vnorm_sqr O) as SO.
    assert (BDO : vnorm O * s <= s * M). { unfold M. apply Rle_trans with (2 * S * s); [apply Rmult_le_compat_r; lra|]. nra. }
    assert (BO : vdot O O <= M * M). { rewrite <- SO. apply Rle_trans with (2 * S * (2 * S)); [apply Rmult_le_compat; lra|]. lra. }
    assert (O0 : 0 <= vdot O O) by (rewrite <- SO; nra).
    assert (BD : Rabs (vdot O D) <= 2 * (s * S)). { rewrite <- R2. eapply Rle_trans; [apply rsum_abs|]. eapply Rle_trans; [exact A2|]. fold s. apply Rle_trans with (2 * S * s); [apply Rmult_le_compat_r; lra|lra]. }
    assert (BD' : Rabs (vdot O D) <= s * M) by lra.
    assert (Ca : Rabs (a - s * s) <= 32 * u * (s * s)) by (apply (coef_a rnd lo u eta CL RW (pairs2 d' d')); auto; try (rewrite SD; auto); rewrite N1; lia).
    assert (Cq : Rabs (q - vdot O D) <= 10 * u * (s * M)) by (apply (coef_q rnd lo u eta CL RW (pairs2 o' d')); auto; first [lra|rewrite N2; lia]).
    assert (Cc : Rabs (cc - vdot O O) <= 10 * u * (M * M)) by (apply (coef_q rnd lo u eta CL RW (pairs2 o' o')); auto; first [lra|rewrite N3; lia]).
    assert (Cb : Rabs (rnd (2 * q) - 2 * vdot O D) <= 24 * u * (s * M)) by (apply (coef_b rnd lo u eta CL RW); auto; lra).
    destruct (coef_den rnd lo u eta CL RW a (s * s)) as (_ & Cd); auto; try (left; apply Rmult_lt_0_compat; auto).
    assert (Uf : 0 <= u * f) by (apply Rmult_le_pos; lra).
    assert (Ef : eta <= u * f). { apply (eta_below lo u eta CL). assert (lo * lo <= 1 * lo) by (apply Rmult_le_compat_r; lra). lra. }
    assert (F4f : Rabs (rnd (4 * f) - 4 * f) <= 5 * u * f) by (apply (rnd_by rnd u eta U0 RW _ 4); auto; try lra; rewrite Rabs_right; lra).
    assert (B4f : Rabs (rnd (4 * f)) <= 4.001 * f) by (apply (near_size u U0 U1 _ (4 * f) 5 4); auto; try lra; rewrite Rabs_right; lra).
    set (g := rnd (4 * f)) in *.
    assert (Gz : Rabs (g * z - 4 * f * z) <= 1.25 * u * (s * M)).
    { replace (g * z - 4 * f * z) with ((g - 4 * f) * z) by ring. eapply Rle_trans; [apply abs_mul_le; [exact F4f|apply Rle_refl]|].
      replace (5 * u * f * Rabs z) with (5 * (u * (s * X))) by (rewrite SX; ring). assert (u * (s * X) <= u * (/ 4 * (s * M))) by (apply Rmult_le_compat_l; lra). lra. }
    assert (Bz : Rabs (g * z) <= 1.001 * (s * M)). { eapply Rle_trans; [apply abs_mul_le; [exact B4f|apply Rle_refl]|]. replace (4.001 * f * Rabs z) with (4.001 * (s * X)) by (rewrite SX; ring). lra. }
    assert (Rz : Rabs (rnd (g * z) - 4 * f * z) <= 3.3 * u * (s * M)) by (apply (rnd_near rnd u eta U0 RW _ (4 * f * z) 1.25 1.001); auto; lra).
    assert (Bz4 : Rabs (4 * f * z) <= 4 * (s * X)). { rewrite !Rabs_mult, (Rabs_right 4), (Rabs_right f) by lra. rewrite SX. lra. }
    assert (Bz2 : Rabs (4 * f * z) <= s * M) by lra.
    assert (Bz3 : Rabs (rnd (g * z)) <= 1.01 * (s * M)) by (apply (near_size u U0 U1 _ (4 * f * z) 3.3 1); auto; lra).
    assert (Bq3 : Rabs (rnd (2 * q)) <= 2.001 * (s * M)). { apply (near_size u U0 U1 _ (2 * vdot O D) 24 2); auto; try lra. rewrite Rabs_mult, (Rabs_right 2) by lra. lra. }
    assert (Cb2 : Rabs (rnd (rnd (2 * q) - rnd (g * z)) - (2 * vdot O D - 4 * f * z)) <= 32 * u * (s * M)).
    { apply (rnd_near rnd u eta U0 RW _ (2 * vdot O D - 4 * f * z) 27.3 3.1); auto; try lra.
      - unfold Rminus. eapply Rle_trans; [apply abs_tri; [exact Bq3|rewrite Rabs_Ropp; exact Bz3]|]. lra.
      - replace (rnd (2 * q) - rnd (g * z) - (2 * vdot O D - 4 * f * z)) with ((rnd (2 * q) - 2 * vdot O D) + - (rnd (g * z) - 4 * f * z)) by ring.
        eapply Rle_trans; [apply abs_tri; [exact Cb|rewrite Rabs_Ropp; exact Rz]|]. lra. }
    assert (FSS : f * S <= S * S) by (apply Rmult_le_compat_r; lra).
    set (oz := vz o') in *.
    assert (Go : Rabs (g * oz - 4 * f * oz) <= 0.6 * u * (M * M)).
    { replace (g * oz - 4 * f * oz) with ((g - 4 * f) * oz) by ring. eapply Rle_trans; [apply abs_mul_le; [exact F4f|exact OZ]|].
      replace (5 * u * f * (1.001 * S)) with (5.005 * (u * (f * S))) by lra. assert (u * (f * S) <= u * (/ 9 * (M * M))) by (apply Rmult_le_compat_l; lra). assert (0 <= u * (M * M)) by (apply Rmult_le_pos; lra). lra. }
    assert (Bo : Rabs (g * oz) <= 0.5 * (M * M)). { eapply Rle_trans; [apply abs_mul_le; [exact B4f|exact OZ]|]. replace (4.001 * f * (1.001 * S)) with (4.001 * 1.001 * (f * S)) by lra. lra. }
    assert (Ro : Rabs (rnd (g * oz) - 4 * f * oz) <= 2.2 * u * (M * M)) by (apply (rnd_near rnd u eta U0 RW _ (4 * f * oz) 0.6 0.5); auto; lra).
    assert (Bo2 : Rabs (4 * f * oz) <= 0.5 * (M * M)). { eapply Rle_trans; [apply abs_mul_le; [rewrite Rabs_right; [apply Rle_refl|lra]|exact OZ]|]. replace (4 * f * (1.001 * S)) with (4.004 * (f * S)) by lra. lra. }
    assert (Bo3 : Rabs (rnd (g * oz)) <= 0.6 * (M * M)) by (apply (near_size u U0 U1 _ (4 * f * oz) 2.2 0.5); auto; lra).
    assert (Bc3 : Rabs cc <= 1.001 * (M * M)) by (apply (near_size u U0 U1 _ (vdot O O) 10 1); auto; try lra; rewrite Rabs_right; lra).
    assert (Cc2 : Rabs (rnd (cc - rnd (g * oz)) - (vdot O O - 4 * f * oz)) <= 32 * u * (M * M)).
    { apply (rnd_near rnd u eta U0 RW _ (vdot O O - 4 * f * oz) 12.2 1.7); auto; try lra.
      - unfold Rminus. eapply Rle_trans; [apply abs_tri; [exact Bc3|rewrite Rabs_Ropp; exact Bo3]|]. lra.
      - replace (cc - rnd (g * oz) - (vdot O O - 4 * f * oz)) with ((cc - vdot O O) + - (rnd (g * oz) - 4 * f * oz)) by ring.
        eapply Rle_trans; [apply abs_tri; [exact Cc|rewrite Rabs_Ropp; exact Ro]|]. lra. }
    assert (HB : Rabs (2 * vdot O D - 4 * f * z) <= 2 * (s * M)).
    { unfold Rminus. eapply Rle_trans; [apply abs_tri; [rewrite Rabs_mult, (Rabs_right 2) by lra; apply Rmult_le_compat_l; [lra|exact BD]|rewrite Rabs_Ropp; exact Bz4]|]. lra. }
    assert (HC : Rabs (vdot O O - 4 * f * oz) <= M * M).
    { assert (A : vdot O O <= 4 * (S * S)) by (rewrite <- SO; apply Rle_trans with (2 * S * (2 * S)); [apply Rmult_le_compat; lra|lra]). apply abs_le_both in Bo2. apply Rabs_le. lra. }
    destruct (root_residual rnd u eta U0 E0 RW U1 s M (2 * vdot O D - 4 * f * z) (vdot O O - 4 * f * oz) a (rnd (rnd (2 * q) - rnd (g * z))) (rnd (cc - rnd (g * oz))) (rnd (rnd (2 * a) + 0)) t) as (Q & T); auto.
    (* the distance is far from overflow and underflow *)
    assert (ET : eta * (1 + Rabs t) <= u * S).
    { apply (far_reach lo u eta CL); auto. eapply Rle_trans; [exact T|].
      assert (I : / s <= / lo) by (apply Rinv_le_contravar; auto). assert (PI : 0 < / s) by (apply Rinv_0_lt_compat; auto).
      assert (XS : X <= S * (/ lo * / lo)).
      { unfold X, Rdiv. rewrite Rmult_assoc. apply Rmult_le_compat; try lra; [apply Rmult_le_pos; lra|]. apply Rmult_le_compat; lra. }
      assert (MS : M <= 5 * (S * (/ lo * / lo))). { unfold M. assert (S * 3 <= S * (/ lo * / lo)) by (apply Rmult_le_compat_l; lra). lra. }
      unfold Rdiv. assert (A : M * / s <= 5 * (S * (/ lo * / lo)) * / lo) by (apply Rmult_le_compat; lra). assert (P3 : 0 < / lo * / lo * / lo) by (apply Rmult_lt_0_compat; lra). assert (0 < S * (/ lo * / lo * / lo)) by (apply Rmult_lt_0_compat; lra). lra. }
    destruct (three rnd lo u eta CL RW m o d o' d' t S IO ID RE LS EB ET) as ((X1 & X2) & (Y1 & Y2) & (Z1 & Z2)). cbn zeta in *.
    set (p := mapply m (fl_move rnd o d t)) in *. set (w := vadd o' (vscale t d')) in *. assert (PS : 0 < S) by lra.
    pose proof (sqr_close lo u eta CL _ _ S PS X1 X2) as E1. pose proof (sqr_close lo u eta CL _ _ S PS Y1 Y2) as E2.
    assert (E3 : Rabs (4 * f * (vz p - vz w)) <= 4 * S * (17 * u * S)) by (apply abs_mul_le; auto; rewrite Rabs_right; lra).
    assert (W : from_axis w - 4 * f * vz w = s * s * (t * t) + (2 * vdot O D - 4 * f * z) * t + (vdot O O - 4 * f * oz)).
    { rewrite SD. unfold O, D, z, oz, w, from_axis, vdot. cbn. ring. }
    rewrite <- W in Q.
    replace (from_axis p - 4 * f * vz p) with ((((vx p * vx p - vx w * vx w) + (vy p * vy p - vy w * vy w)) + - (4 * f * (vz p - vz w))) + (from_axis w - 4 * f * vz w)) by (unfold from_axis; ring).
    eapply Rle_trans; [apply abs_tri; [apply abs_tri; [apply abs_tri; eassumption|rewrite Rabs_Ropp; exact E3]|exact Q]|].
    assert (G : M * M <= 16 * ((S + X) * (S + X))).
    { replace (16 * ((S + X) * (S + X))) with ((4 * S + 4 * X) * (4 * S + 4 * X)) by ring. apply Rmult_le_compat; unfold M; lra. }
    assert (G2 : S * S <= (S + X) * (S + X)) by (apply Rmult_le_compat; lra).
    assert (u * (M * M) <= u * (16 * ((S + X) * (S + X)))) by (apply Rmult_le_compat_l; auto). assert (u * (S * S) <= u * ((S + X) * (S + X))) by (apply Rmult_le_compat_l; auto). lra.
  Qed.
End Bowl.
