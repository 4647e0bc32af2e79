(** * FlBowlProps: a ray that steps off a paraboloid does not meet it again, with rounding *)
From Coq Require Import Reals List Bool ZArith Permutation Lra Lia Psatz.
Import ListNotations.
From Verif Require Import XR XRFacts Lin LinFacts Fl SpecFl FlFacts FlProps FlHits SpecFlHits FlHitsFacts FlHitsRoot FlHitsProps FlHitsOn FlHitsBowl FlHitsSure FlHitsSure2 FlStep SpecFlStep FlStepProps FlBowl SpecFlBowl.
Open Scope R_scope.

Section Bowl.
  Variable rnd : R -> R.
  Variables lo u eta : R.
  Hypothesis CL : clear lo u eta.
  Hypothesis UP : 0 < u.
  Hypothesis RW : rounds_within u eta rnd.
  Let U0 : 0 <= u. Proof. lra. Qed.
  Let U1 : u <= / 1000000. Proof. destruct CL as (_ & (_ & H) & _). exact H. Qed.
  Let E0 : 0 <= eta. Proof. destruct CL as (_ & _ & (H & _)). exact H. Qed.
  Let L0 : 0 < lo. Proof. destruct CL as ((H & _) & _). exact H. Qed.
  Let L9 : lo <= / 1000000000. Proof. destruct CL as ((_ & H) & _). exact H. Qed.

  Section Coefs.
    Variables (f S a q cc : R) (o' d' : v4).
    Hypothesis FL : lo <= f.
    Hypothesis FS : f <= S.
    Hypothesis HO : from_axis o' <= (2 * S) * (2 * S).
    Hypothesis OZ : Rabs (vz o') <= 1.001 * S.
    Hypothesis D2 : from_axis d' <= / lo * / lo.
    Hypothesis H1 : rdot rnd (pairs2 d' d') a.
    Hypothesis H2 : rdot rnd (pairs2 o' d') q.
    Hypothesis H3 : rdot rnd (pairs2 o' o') cc.
    Hypothesis NC : isclose a 0 = false.
    Let s := sqrt (from_axis d').
    Let M := 3 * S + 4 * climb f d'.
    Let B := 2 * (vx o' * vx d' + vy o' * vy d' - 2 * f * vz d').
    Let C := from_bowl f o'.
    Let b := rnd (rnd (2 * q) - rnd (rnd (4 * f) * vz d')).
    Let c := rnd (cc - rnd (rnd (4 * f) * vz o')).
    Lemma bowl_coefs : 0 < s /\ 0 < M /\ 0 <= climb f d' /\ (eta <= u * (s * s) /\ eta <= u * (s * M) /\ eta <= u * ((s * M) * (s * M)) /\ eta <= u * (M / s)) /\ Rabs B <= 2 * (s * M) /\ Rabs C <= M * M /\
      Rabs (a - s * s) <= 32 * u * (s * s) /\ Rabs (b - B) <= 32 * u * (s * M) /\ Rabs (c - C) <= 32 * u * (M * M) /\ Rabs (rnd (rnd (2 * a) + 0) - 2 * a) <= 32 * u * (s * s).
    Proof.
      assert (LS : lo <= S) by lra.
      destruct (sum2 d' d') as (R1 & _ & A1 & N1). destruct (sum2 o' d') as (R2 & A2 & _ & N2). destruct (sum2 o' o') as (R3 & _ & A3 & N3).
      assert (DD : vdot (cut2 d') (cut2 d') = from_axis d') by (unfold vdot, from_axis; cbn; ring).
      assert (OO : vdot (cut2 o') (cut2 o') = from_axis o') by (unfold vdot, from_axis; cbn; ring).
      assert (NO : vnorm (cut2 o') <= 2 * S) by (apply le_of_sqr; [lra|]; rewrite vnorm_sqr, OO; auto).
      pose proof (vnorm_sqr (cut2 d')) as SD. pose proof (vnorm_nonneg (cut2 d')) as PD. pose proof (inv_lo lo u eta CL) as (I1 & I2 & I3 & I4).
      assert (SQ : s = vnorm (cut2 d')) by (unfold s, vnorm; rewrite DD; auto).
      assert (ND : vnorm (cut2 d') <= / lo) by (apply le_of_sqr; [lra|rewrite SD, DD; auto]).
      assert (D1 : lo * lo <= vdot (cut2 d') (cut2 d')) by (apply (not_close rnd lo u eta CL RW _ _ a H1); auto; rewrite N1; lia).
      unfold B, C, b, c, M, climb, from_bowl. fold s. rewrite <- OO.
      replace (2 * (vx o' * vx d' + vy o' * vy d' - 2 * f * vz d')) with (2 * vdot (cut2 o') (cut2 d') - 4 * f * vz d') by (unfold vdot; cbn; ring).
      rewrite <- SD in D1. clearbody s. rewrite <- SQ in SD, PD, ND, D1, A2. assert (LD : lo <= s) by nra. assert (S0 : 0 < s) by lra.
      clear B C b c. clearbody M. clear M.
      set (z := vz d') in *. set (X := f * Rabs z / s) in *. pose proof (Rabs_pos z) as Z0.
      assert (X0 : 0 <= X) by (unfold X, Rdiv; apply Rmult_le_pos; [apply Rmult_le_pos; lra|left; apply Rinv_0_lt_compat; auto]).
      assert (SX : s * X = f * Rabs z) by (unfold X; field; lra).
      set (M := 3 * S + 4 * X). assert (M0 : 0 < M) by (unfold M; lra). assert (ML : lo <= M) by (unfold M; lra).
      destruct (far lo u eta CL s M D1 S0 ND ML) as (F1 & F2 & F3 & F4 & F5).
      assert (SM : s * M = 3 * (s * S) + 4 * (s * X)) by (unfold M; ring). assert (sS : 0 < s * S) by nra. assert (sX : 0 <= s * X) by nra.
      assert (MM : 9 * (S * S) <= M * M) by (unfold M; nra). assert (SS : 0 < S * S) by nra. assert (PM : 0 < s * M) by lra. assert (PMM : 0 < M * M) by nra.
      set (O := cut2 o') in *. set (D := cut2 d') in *. pose proof (vnorm_nonneg O) as PO. pose proof (vnorm_sqr O) as SO.
      assert (BDO : vnorm O * s <= s * M). { unfold M. apply Rle_trans with (2 * S * s); [apply Rmult_le_compat_r; lra|]. nra. }
      assert (BO : vdot O O <= M * M). { rewrite <- SO. apply Rle_trans with (2 * S * (2 * S)); [apply Rmult_le_compat; lra|]. lra. }
      assert (O0 : 0 <= vdot O O) by (rewrite <- SO; nra).
      assert (BD : Rabs (vdot O D) <= 2 * (s * S)). { rewrite <- R2. eapply Rle_trans; [apply rsum_abs|]. eapply Rle_trans; [exact A2|]. rewrite <- ?SQ. apply Rle_trans with (2 * S * s); [apply Rmult_le_compat_r; lra|lra]. }
      assert (BD' : Rabs (vdot O D) <= s * M) by lra.
      assert (Ca : Rabs (a - s * s) <= 32 * u * (s * s)) by (apply (coef_a rnd lo u eta CL RW (pairs2 d' d')); auto; try (rewrite SD; auto); rewrite N1; lia).
      assert (Cq : Rabs (q - vdot O D) <= 10 * u * (s * M)) by (apply (coef_q rnd lo u eta CL RW (pairs2 o' d')); auto; first [lra|rewrite N2; lia]).
      assert (Cc : Rabs (cc - vdot O O) <= 10 * u * (M * M)) by (apply (coef_q rnd lo u eta CL RW (pairs2 o' o')); auto; first [lra|rewrite N3; lia]).
      assert (Cb : Rabs (rnd (2 * q) - 2 * vdot O D) <= 24 * u * (s * M)) by (apply (coef_b rnd lo u eta CL RW); auto; lra).
      destruct (coef_den rnd lo u eta CL RW a (s * s)) as (_ & Cd); auto; try (left; apply Rmult_lt_0_compat; auto).
      assert (Uf : 0 <= u * f) by (apply Rmult_le_pos; lra).
      assert (Ef : eta <= u * f). { apply (eta_below lo u eta CL). assert (lo * lo <= 1 * lo) by (apply Rmult_le_compat_r; lra). lra. }
      assert (F4f : Rabs (rnd (4 * f) - 4 * f) <= 5 * u * f) by (apply (rnd_by rnd u eta U0 RW _ 4); auto; try lra; rewrite Rabs_right; lra).
      assert (B4f : Rabs (rnd (4 * f)) <= 4.001 * f) by (apply (near_size u U0 U1 _ (4 * f) 5 4); auto; try lra; rewrite Rabs_right; lra).
      set (g := rnd (4 * f)) in *.
      assert (Gz : Rabs (g * z - 4 * f * z) <= 1.25 * u * (s * M)).
      { replace (g * z - 4 * f * z) with ((g - 4 * f) * z) by ring. eapply Rle_trans; [apply abs_mul_le; [exact F4f|apply Rle_refl]|].
        replace (5 * u * f * Rabs z) with (5 * (u * (s * X))) by (rewrite SX; ring). assert (u * (s * X) <= u * (/ 4 * (s * M))) by (apply Rmult_le_compat_l; lra). lra. }
      assert (Bz : Rabs (g * z) <= 1.001 * (s * M)). { eapply Rle_trans; [apply abs_mul_le; [exact B4f|apply Rle_refl]|]. replace (4.001 * f * Rabs z) with (4.001 * (s * X)) by (rewrite SX; ring). lra. }
      assert (Rz : Rabs (rnd (g * z) - 4 * f * z) <= 3.3 * u * (s * M)) by (apply (rnd_near rnd u eta U0 RW _ (4 * f * z) 1.25 1.001); auto; lra).
      assert (Bz4 : Rabs (4 * f * z) <= 4 * (s * X)). { rewrite !Rabs_mult, (Rabs_right 4), (Rabs_right f) by lra. rewrite SX. lra. }
      assert (Bz2 : Rabs (4 * f * z) <= s * M) by lra.
      assert (Bz3 : Rabs (rnd (g * z)) <= 1.01 * (s * M)) by (apply (near_size u U0 U1 _ (4 * f * z) 3.3 1); auto; lra).
      assert (Bq3 : Rabs (rnd (2 * q)) <= 2.001 * (s * M)). { apply (near_size u U0 U1 _ (2 * vdot O D) 24 2); auto; try lra. rewrite Rabs_mult, (Rabs_right 2) by lra. lra. }
      assert (Cb2 : Rabs (rnd (rnd (2 * q) - rnd (g * z)) - (2 * vdot O D - 4 * f * z)) <= 32 * u * (s * M)).
      { apply (rnd_near rnd u eta U0 RW _ (2 * vdot O D - 4 * f * z) 27.3 3.1); auto; try lra.
        - unfold Rminus. eapply Rle_trans; [apply abs_tri; [exact Bq3|rewrite Rabs_Ropp; exact Bz3]|]. lra.
        - replace (rnd (2 * q) - rnd (g * z) - (2 * vdot O D - 4 * f * z)) with ((rnd (2 * q) - 2 * vdot O D) + - (rnd (g * z) - 4 * f * z)) by ring.
          eapply Rle_trans; [apply abs_tri; [exact Cb|rewrite Rabs_Ropp; exact Rz]|]. lra. }
      assert (FSS : f * S <= S * S) by (apply Rmult_le_compat_r; lra).
      set (oz := vz o') in *.
      assert (Go : Rabs (g * oz - 4 * f * oz) <= 0.6 * u * (M * M)).
      { replace (g * oz - 4 * f * oz) with ((g - 4 * f) * oz) by ring. eapply Rle_trans; [apply abs_mul_le; [exact F4f|exact OZ]|].
        replace (5 * u * f * (1.001 * S)) with (5.005 * (u * (f * S))) by lra. assert (u * (f * S) <= u * (/ 9 * (M * M))) by (apply Rmult_le_compat_l; lra). assert (0 <= u * (M * M)) by (apply Rmult_le_pos; lra). lra. }
      assert (Bo : Rabs (g * oz) <= 0.5 * (M * M)). { eapply Rle_trans; [apply abs_mul_le; [exact B4f|exact OZ]|]. replace (4.001 * f * (1.001 * S)) with (4.001 * 1.001 * (f * S)) by lra. lra. }
      assert (Ro : Rabs (rnd (g * oz) - 4 * f * oz) <= 2.2 * u * (M * M)) by (apply (rnd_near rnd u eta U0 RW _ (4 * f * oz) 0.6 0.5); auto; lra).
      assert (Bo2 : Rabs (4 * f * oz) <= 0.5 * (M * M)). { eapply Rle_trans; [apply abs_mul_le; [rewrite Rabs_right; [apply Rle_refl|lra]|exact OZ]|]. replace (4 * f * (1.001 * S)) with (4.004 * (f * S)) by lra. lra. }
      assert (Bo3 : Rabs (rnd (g * oz)) <= 0.6 * (M * M)) by (apply (near_size u U0 U1 _ (4 * f * oz) 2.2 0.5); auto; lra).
      assert (Bc3 : Rabs cc <= 1.001 * (M * M)) by (apply (near_size u U0 U1 _ (vdot O O) 10 1); auto; try lra; rewrite Rabs_right; lra).
      assert (Cc2 : Rabs (rnd (cc - rnd (g * oz)) - (vdot O O - 4 * f * oz)) <= 32 * u * (M * M)).
      { apply (rnd_near rnd u eta U0 RW _ (vdot O O - 4 * f * oz) 12.2 1.7); auto; try lra.
        - unfold Rminus. eapply Rle_trans; [apply abs_tri; [exact Bc3|rewrite Rabs_Ropp; exact Bo3]|]. lra.
        - replace (cc - rnd (g * oz) - (vdot O O - 4 * f * oz)) with ((cc - vdot O O) + - (rnd (g * oz) - 4 * f * oz)) by ring.
          eapply Rle_trans; [apply abs_tri; [exact Cc|rewrite Rabs_Ropp; exact Ro]|]. lra. }
      assert (HB : Rabs (2 * vdot O D - 4 * f * z) <= 2 * (s * M)).
      { unfold Rminus. eapply Rle_trans; [apply abs_tri; [rewrite Rabs_mult, (Rabs_right 2) by lra; apply Rmult_le_compat_l; [lra|exact BD]|rewrite Rabs_Ropp; exact Bz4]|]. lra. }
      assert (HC : Rabs (vdot O O - 4 * f * oz) <= M * M).
      { assert (A : vdot O O <= 4 * (S * S)) by (rewrite <- SO; apply Rle_trans with (2 * S * (2 * S)); [apply Rmult_le_compat; lra|lra]). apply abs_le_both in Bo2. apply Rabs_le. lra. }
      repeat (split; auto).
    Qed.
  End Coefs.

  Section Off.
    Variables (m : mat) (f h S K E : R) (p v o2 v2 : v4).
    Hypothesis HH : 0 < h <= 1.
    Hypothesis I1 : fl_image rnd m (fl_step rnd h p v) o2.
    Hypothesis I2 : fl_image rnd m v v2.
    Hypothesis RE : reach m p v h S.
    Hypothesis FL : lo <= f.
    Hypothesis FS : f <= S.
    Hypothesis EB : entries_below m (/ lo).
    Hypothesis V2 : from_axis v2 <= / lo * / lo.
    Hypothesis SK : S + climb f v2 <= K.
    Hypothesis ON : Rabs (from_bowl f (mapply m p)) <= E.

    Lemma bowl_moved : Rabs (from_bowl f o2 - (from_bowl f (mapply m p) + 2 * (h * rate_from_bowl m f p v) + h * h * from_axis (mapply m v))) <= 800 * u * (S * S) /\
      h * Rabs ((vx o2 * vx v2 + vy o2 * vy v2 - 2 * f * vz v2) - (rate_from_bowl m f p v + h * from_axis (mapply m v))) <= 300 * u * (S * S) /\
      from_axis o2 <= (2 * S) * (2 * S) /\ Rabs (vz o2) <= 1.001 * S.
    Proof.
      assert (LS : lo <= S) by lra.
      destruct (side_moved rnd lo u eta CL UP RW m h S p v o2 v2 HH I1 I2 RE LS EB) as (A & B & C).
      destruct (stepped rnd lo u eta CL UP RW m p v h o2 v2 S HH I1 I2 RE LS EB) as (_ & _ & (Z1 & Z2 & Z3 & Z4)).
      assert (FSS : f * S <= S * S) by (apply Rmult_le_compat_r; lra). assert (SS0 : 0 <= u * (S * S)) by (apply Rmult_le_pos; nra). assert (UF : u * (f * S) <= u * (S * S)) by (apply Rmult_le_compat_l; lra).
      unfold rate_from_bowl, rate_from_axis, from_bowl in *. set (P := mapply m p) in *. set (V := mapply m v) in *. cbn [vadd vscale vz] in *.
      split; [|split; [|split; [exact C|]]].
      - match goal with |- Rabs ?e <= _ => replace e with ((from_axis o2 - (from_axis P + 2 * (h * (vx P * vx V + vy P * vy V)) + h * h * from_axis V)) + - (4 * f * (vz o2 - (vz P + h * vz V)))) by ring end.
        eapply Rle_trans; [apply abs_tri; [exact A|rewrite Rabs_Ropp; apply abs_mul_le; [rewrite Rabs_right by lra; apply Rle_refl|exact Z1]]|]. lra.
      - assert (HR : forall x, h * Rabs x = Rabs (h * x)) by (intro x; rewrite Rabs_mult, (Rabs_right h) by lra; reflexivity). rewrite HR in B, Z3 |- *.
        match goal with |- Rabs ?e <= _ => replace e with (h * (vx v2 * vx o2 + vy v2 * vy o2 - (vx P * vx V + vy P * vy V + h * from_axis V)) + - (2 * f * (h * (vz v2 - vz V)))) by ring end.
        eapply Rle_trans; [apply abs_tri; [exact B|rewrite Rabs_Ropp; apply abs_mul_le; [rewrite Rabs_right by lra; apply Rle_refl|exact Z3]]|]. lra.
      - replace (vz o2) with ((vz o2 - (vz P + h * vz V)) + (vz P + h * vz V)) by ring. eapply Rle_trans; [apply abs_tri; eassumption|].
        assert (u * S <= / 1000000 * S) by (apply Rmult_le_compat_r; lra). lra.
    Qed.
    Lemma bowl_size : 0 <= climb f v2 -> 0 <= u * (K * K) /\ u * (S * S) <= u * (K * K) /\ u * ((3 * S + 4 * climb f v2) * (3 * S + 4 * climb f v2)) <= 16 * (u * (K * K)).
    Proof.
      intros C0. assert (S0 : 0 < S) by lra. assert (KK : S * S <= K * K) by (apply Rmult_le_compat; lra).
      assert (MK : (3 * S + 4 * climb f v2) * (3 * S + 4 * climb f v2) <= (4 * K) * (4 * K)) by (apply Rmult_le_compat; lra).
      split; [apply Rmult_le_pos; nra|]. split; [apply Rmult_le_compat_l; lra|].
      replace (16 * (u * (K * K))) with (u * ((4 * K) * (4 * K))) by ring. apply Rmult_le_compat_l; lra.
    Qed.

    Theorem bowl_left : E + 8192 * u * (K * K) <= 2 * (h * rate_from_bowl m f p v) -> forall t0 t1, fl_bowl_hits rnd f o2 v2 t0 t1 -> t0 < 0 /\ t1 < 0.
    Proof.
      intros OUT t0 t1 (a & b & c & (q & cc & H1 & H2 & H3 & NC & -> & ->) & F).
      destruct bowl_moved as (M1 & M2 & M3 & M4).
      destruct (bowl_coefs f S a q cc o2 v2 FL FS M3 M4 V2 H1 H2 H3 NC) as (S0 & M0 & C0 & (E1 & E2 & E3 & E5) & BB & BC & Ca & Cb & Cc & Cd).
      destruct (bowl_size C0) as (K0 & K1 & K2).
      assert (VV : 0 <= h * h * from_axis (mapply m v)) by (unfold from_axis; apply Rmult_le_pos; nra).
      apply abs_both in M1. apply abs_both in ON.
      rewrite <- (Rabs_right h) in M2 at 1 by lra. rewrite <- Rabs_mult in M2. apply abs_both in M2.
      assert (RT : 0 <= vx o2 * vx v2 + vy o2 * vy v2 - 2 * f * vz v2) by (apply Rmult_le_reg_l with h; lra).
      eapply (behind rnd u eta U0 E0 RW U1 _ _ _ _ a _ _ S0 M0 E1 E2 E3 E5 BB BC Ca Cb Cc _ t0 t1 UP Cd); [lra|lra|exact F].
    Qed.
    Theorem bowl_entered : 2 * (h * rate_from_bowl m f p v) + h * h * from_axis (mapply m v) <= - (E + 8192 * u * (K * K)) ->
      ~ fl_bowl_miss rnd f o2 v2 /\ forall t0 t1, fl_bowl_hits rnd f o2 v2 t0 t1 -> t1 < 0 < t0.
    Proof.
      intros IN. destruct bowl_moved as (M1 & _ & M3 & M4). apply abs_both in M1. apply abs_both in ON.
      assert (G : forall a q cc, rdot rnd (pairs2 v2 v2) a -> rdot rnd (pairs2 o2 v2) q -> rdot rnd (pairs2 o2 o2) cc -> isclose a 0 = false ->
        let b := rnd (rnd (2 * q) - rnd (rnd (4 * f) * vz v2)) in let c := rnd (cc - rnd (rnd (4 * f) * vz o2)) in let den := rnd (rnd (2 * a) + 0) in
        0 <= fl_disc rnd a b c /\ fl_root rnd (-1) a b c den < 0 < fl_root rnd 1 a b c den).
      { intros a q cc H1 H2 H3 NC. cbn zeta.
        destruct (bowl_coefs f S a q cc o2 v2 FL FS M3 M4 V2 H1 H2 H3 NC) as (S0 & M0 & C0 & (E1 & E2 & E3 & E5) & BB & BC & Ca & Cb & Cc & Cd).
        destruct (bowl_size C0) as (K0 & K1 & K2).
        apply (within rnd u eta U0 E0 RW U1 _ _ _ _ a _ _ S0 M0 E1 E2 E3 E5 BB BC Ca Cb Cc _ UP Cd). lra. }
      split.
      - intros (a & b & c & (q & cc & H1 & H2 & H3 & NC & -> & ->) & F). destruct (G a q cc H1 H2 H3 NC) as (D & _). lra.
      - intros t0 t1 (a & b & c & (q & cc & H1 & H2 & H3 & NC & -> & ->) & (F & -> & ->)). destruct (G a q cc H1 H2 H3 NC) as (_ & D). exact D.
    Qed.
  End Off.
End Bowl.
