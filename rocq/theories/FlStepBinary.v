(** * FlStepBinary: the step of 1e-6 in binary64, and where it is lost *)
From Coq Require Import Reals List Bool ZArith Permutation Lra Lia.
Import ListNotations.
From Flocq Require Import Core.
From Verif Require Import XR XRFacts Lin Fl SpecFl FlFacts FlProps FlBinary FlHits SpecFlHits FlHitsFacts FlHitsBinary FlStep SpecFlStep FlStepProps.
Open Scope R_scope.

Lemma offset64 : 0.999999 / 1000000 <= fl_offset binary64 <= 1.000001 / 1000000.
Proof.
  unfold fl_offset. pose proof (binary64_rounds (1 / 1000000)) as H. rewrite (Rabs_right (1 / 1000000)) in H by lra. apply abs_both in H.
  pose proof eta64_small as (E0 & E1). pose proof u64_small. rewrite u64_value in *. lra.
Qed.
Lemma image_exists : forall rnd m v, exists v', fl_image rnd m v v'.
Proof.
  intros rnd m v. destruct (rdot4_exists rnd (row0 m) v) as [a A], (rdot4_exists rnd (row1 m) v) as [b B], (rdot4_exists rnd (row2 m) v) as [c C], (rdot4_exists rnd (row3 m) v) as [d D].
  exists (V4 a b c d). unfold fl_image. auto.
Qed.

(** ** Far from the origin the step is less than half the distance to the next number *)
Notation fexp64 := (FLT_exp (-1074) 53).
Lemma far_positive : forall x e, generic_format radix2 fexp64 x -> bpow radix2 35 <= x -> Rabs e < bpow radix2 (-19) -> binary64 (x + e) = x.
Proof.
  intros x e F X E. apply Rabs_def2 in E. assert (X0 : 0 < x) by (eapply Rlt_le_trans; [apply bpow_gt_0|exact X]).
  assert (M : (36 <= mag radix2 x)%Z) by (apply mag_ge_bpow; rewrite Rabs_right by lra; exact X).
  assert (UL : bpow radix2 (-17) <= ulp radix2 fexp64 x).
  { rewrite ulp_neq_0 by lra. apply bpow_le. unfold cexp, FLT_exp. lia. }
  assert (S1 : x + bpow radix2 (-17) <= succ radix2 fexp64 x) by (rewrite succ_eq_pos by lra; lra).
  assert (P1 : pred radix2 fexp64 x <= x - bpow radix2 (-18)).
  { rewrite pred_eq_pos by lra. unfold pred_pos. assert (L : bpow radix2 (-18) <= bpow radix2 (-17)) by (apply bpow_le; lia).
    destruct (Req_bool x (bpow radix2 (mag radix2 x - 1))); [|lra].
    assert (bpow radix2 (-18) <= bpow radix2 (fexp64 (mag radix2 x - 1))) by (apply bpow_le; unfold FLT_exp; lia). lra. }
  assert (B18 : bpow radix2 (-18) = 2 * bpow radix2 (-19)) by (change 2 with (bpow radix2 1) at 1; rewrite <- (bpow_plus radix2 1 (-19)); reflexivity).
  assert (B17 : bpow radix2 (-17) = 4 * bpow radix2 (-19)) by (change 4 with (bpow radix2 2) at 1; rewrite <- (bpow_plus radix2 2 (-19)); reflexivity).
  assert (V : Valid_exp fexp64) by (apply FLT_exp_valid; reflexivity).
  apply Rle_antisym.
  - apply (round_N_le_midp radix2 fexp64); auto. lra.
  - apply (round_N_ge_midp radix2 fexp64); auto. lra.
Qed.
Lemma format64 : forall x, binary64 x = x -> generic_format radix2 fexp64 x.
Proof. intros x <-. apply generic_format_round; [apply FLT_exp_valid; reflexivity|apply valid_rnd_N]. Qed.
Lemma far_any : forall x e, binary64 x = x -> bpow radix2 35 <= Rabs x -> Rabs e < bpow radix2 (-19) -> binary64 (x + e) = x.
Proof.
  intros x e F X E. destruct (Rle_or_lt 0 x) as [G|G].
  - rewrite Rabs_right in X by lra. apply far_positive; auto using format64.
  - rewrite Rabs_left in X by lra. assert (O : forall y, binary64 (- y) = - binary64 y) by (intros y; unfold binary64; apply round_NE_opp).
    replace (x + e) with (- (- x + - e)) by ring. rewrite O. rewrite far_positive; [ring| |exact X|rewrite Rabs_Ropp; exact E].
    apply format64. rewrite O, F. reflexivity.
Qed.
Lemma step_small : forall y, Rabs y <= 1.1 -> Rabs (binary64 (fl_offset binary64 * y)) < bpow radix2 (-19).
Proof.
  intros y Y. pose proof offset64 as (H0 & H1). pose proof (binary64_rounds (fl_offset binary64 * y)) as B.
  assert (A : Rabs (fl_offset binary64 * y) <= 1.000001 / 1000000 * 1.1) by (apply abs_mul_le; auto; rewrite Rabs_right; lra).
  pose proof eta64_small as (E0 & E1). pose proof u64_small as (V0 & V1).
  assert (u64 * Rabs (fl_offset binary64 * y) <= / 1000000 * (1.000001 / 1000000 * 1.1)) by (apply Rmult_le_compat; auto using Rabs_pos; lra).
  change (bpow radix2 (-19)) with (/ 524288).
  replace (binary64 (fl_offset binary64 * y)) with ((binary64 (fl_offset binary64 * y) - fl_offset binary64 * y) + fl_offset binary64 * y) by ring.
  eapply Rle_lt_trans; [apply abs_tri; [exact B|exact A]|]. rewrite u64_value in *. lra.
Qed.
Lemma step_lost1 : forall x y, stays x y -> binary64 (x + binary64 (fl_offset binary64 * y)) = x.
Proof.
  intros x y (F & [->|(X & Y)]).
  - rewrite Rmult_0_r, (exact_int 0 eq_refl), Rplus_0_r. exact F.
  - apply far_any; auto. apply step_small; auto.
Qed.
Theorem step_lost : forall p v, stays (vx p) (vx v) -> stays (vy p) (vy v) -> stays (vz p) (vz v) -> stays (vw p) (vw v) ->
  fl_step binary64 (fl_offset binary64) p v = p.
Proof.
  intros [px py pz pw] [dx dy dz dw]. unfold fl_step, vround, vadd, vscale. cbn. intros A B C D. rewrite !step_lost1 by auto. reflexivity.
Qed.
