(** * FlBinary: binary64 is such a rounding; a concrete journey *)
From Coq Require Import Reals List Bool ZArith Permutation Lra Lia.
Import ListNotations.
From Flocq Require Import Core Relative.
From Verif Require Import XR XRFacts Lin Fl SpecFl FlFacts FlProps.
Open Scope R_scope.

Definition u64 : R := bpow radix2 (-53).
Definition eta64 : R := bpow radix2 (-1075).
Lemma binary64_rounds : rounds_within u64 eta64 binary64.
Proof.
  intro x. destruct (error_N_FLT radix2 (-1074) 53 eq_refl (fun z => negb (Z.even z)) x) as (e & t & E & T & _ & Q).
  unfold binary64. change ZnearestE with (Znearest (fun z => negb (Z.even z))). rewrite Q.
  replace (x * (1 + e) + t - x) with (e * x + t) by ring. eapply Rle_trans; [apply Rabs_triang|]. rewrite Rabs_mult.
  assert (U : / 2 * bpow radix2 (- (53) + 1) = u64). { unfold u64. change (/ 2) with (/ IZR 2). rewrite <- (bpow_plus radix2 (-1)). reflexivity. }
  assert (H : / 2 * bpow radix2 (-1074) = eta64). { unfold eta64. rewrite <- (bpow_plus radix2 (-1)). reflexivity. }
  rewrite U in E. rewrite H in T. apply Rplus_le_compat; auto. apply Rmult_le_compat_r; auto. apply Rabs_pos.
Qed.
Lemma u64_value : u64 = / 9007199254740992.
Proof. reflexivity. Qed.
Lemma u64_small : 0 <= u64 <= / 1000000.
Proof. rewrite u64_value. lra. Qed.
Lemma eta64_small : 0 <= eta64 <= u64 * / 1000000.
Proof.
  split; [apply bpow_ge_0|]. apply Rle_trans with (u64 * bpow radix2 (-20)).
  - unfold u64, eta64. rewrite <- bpow_plus. apply bpow_le. lia.
  - apply Rmult_le_compat_l; [apply u64_small|]. change (bpow radix2 (-20)) with (/ 1048576). lra.
Qed.

(** integers and their halves are exact *)
Lemma binary64_exact : forall m e, (Z.abs m < 2 ^ 53)%Z -> (-1074 <= e)%Z -> binary64 (F2R (Float radix2 m e)) = F2R (Float radix2 m e).
Proof.
  intros m e M E. apply round_generic; [apply valid_rnd_N|]. apply generic_format_FLT. exists (Float radix2 m e); auto.
Qed.
Lemma exact_int : forall m, (Z.abs m < 2 ^ 53)%Z -> binary64 (IZR m) = IZR m.
Proof. intros m M. pose proof (binary64_exact m 0 M ltac:(lia)) as H. unfold F2R in H. simpl in H. rewrite Rmult_1_r in H. exact H. Qed.
Lemma exact_half : forall m, (Z.abs m < 2 ^ 53)%Z -> binary64 (IZR m * / 2) = IZR m * / 2.
Proof. intros m M. exact (binary64_exact m (-1) M ltac:(lia)). Qed.

(** ** A ray along the axis: a mirror, then a glass *)
Definition up_z (a : R) : v4 := vector 0 0 a.
Lemma dot_axis : forall a b, binary64 (a * b) = a * b -> rdot binary64 (pairs (up_z a) (up_z b)) (a * b).
Proof.
  intros a b E. assert (Z0 : binary64 0 = 0) by (apply (exact_int 0); reflexivity).
  assert (R0 : rdot binary64 [(0, 0)] 0). { pose proof (Rdot_mul binary64 0 0) as H. rewrite Rmult_0_l, Z0 in H. exact H. }
  assert (R1 : rdot binary64 [(a, b); (0, 0)] (a * b)). { pose proof (Rdot_fma binary64 _ _ a b 0 (Permutation_refl [(a, b); (0, 0)]) R0) as H. rewrite Rplus_0_r, E in H. exact H. }
  assert (R2 : forall l, rdot binary64 l (a * b) -> rdot binary64 ((0, 0) :: l) (a * b)). { intros l H0. pose proof (Rdot_fma binary64 _ _ 0 0 _ (Permutation_refl ((0, 0) :: l)) H0) as H. rewrite Rmult_0_l, Rplus_0_l, E in H. exact H. }
  exact (R2 _ (R2 _ R1)).
Qed.
Lemma round_axis : forall a, binary64 a = a -> vround binary64 (up_z a) = up_z a.
Proof. intros a E. unfold vround, up_z, vector. cbn. rewrite E, !(exact_int 0 eq_refl). reflexivity. Qed.
Lemma scale_axis : forall k a, vscale k (up_z a) = up_z (k * a).
Proof. intros. unfold vscale, up_z, vector. cbn. f_equal; ring. Qed.
Lemma add_axis : forall a b, vadd (up_z a) (up_z b) = up_z (a + b).
Proof. intros. unfold vadd, up_z, vector. cbn. f_equal; ring. Qed.
Lemma one64 : binary64 1 = 1. Proof. apply (exact_int 1). reflexivity. Qed.
Lemma none64 : binary64 (-1) = -1. Proof. apply (exact_int (-1)). reflexivity. Qed.
Lemma normalize_axis : forall a, a = 1 \/ a = -1 -> fl_normalize binary64 (up_z a) (up_z a).
Proof.
  intros a A. assert (A2 : a * a = 1) by (destruct A as [-> | ->]; ring). assert (E : binary64 a = a) by (destruct A as [-> | ->]; [exact one64|exact none64]).
  exists 1. split.
  - exists (a * a). split; [apply dot_axis; rewrite A2; exact one64|]. rewrite A2, sqrt_1, one64. reflexivity.
  - rewrite scale_axis, Rinv_1, Rmult_1_l, round_axis; auto.
Qed.
Lemma sizeable_axis : forall a, a = 1 \/ a = -1 -> sizeable u64 eta64 (up_z a).
Proof.
  intros a A. assert (A2 : a * a = 1) by (destruct A as [-> | ->]; ring). unfold sizeable. replace (vdot (up_z a) (up_z a)) with 1 by (unfold vdot, up_z, vector; cbn; lra).
  pose proof eta64_small. pose proof u64_small. split; lra.
Qed.
Lemma a_journey : journey binary64 u64 eta64 2 (up_z (-1)).
Proof.
  assert (J1 : journey binary64 u64 eta64 1 (up_z (-1))).
  { apply (J_mirror _ _ _ 0 (up_z 1) (up_z (-1)) (up_z (-1))).
    - constructor. replace (vnorm (up_z 1)) with 1; [rewrite Rminus_diag_eq by auto; rewrite Rabs_R0; pose proof u64_small; lra|].
      unfold vnorm, vdot, up_z, vector; cbn. replace (0 * 0 + 0 * 0 + 1 * 1 + 0 * 0) with 1 by ring. symmetry. apply sqrt_1.
    - apply sizeable_axis. auto.
    - exists (up_z (-1)), 1. split; [apply normalize_axis; auto|]. split; auto. rewrite scale_axis. f_equal. ring.
    - exists (1 * -1). split; [apply dot_axis; rewrite Rmult_1_l; exact none64|].
      rewrite scale_axis. replace (2 * -1) with (IZR (-2)) by ring. rewrite (round_axis _ (exact_int (-2) eq_refl)), scale_axis.
      replace (1 * -1 * -2) with (IZR 2) by ring. rewrite (round_axis _ (exact_int 2 eq_refl)). unfold vsub, vopp. rewrite scale_axis, add_axis.
      replace (1 + -1 * 2) with (-1) by ring. rewrite (round_axis _ none64). reflexivity. }
  apply (J_glass _ _ _ 1 (up_z (-1)) (up_z 1) (up_z 1) 1 2 1 _ 2 J1); try lra.
  - apply sizeable_axis. auto.
  - exists (up_z 1), 1. split; [apply normalize_axis; auto|]. split; auto. rewrite scale_axis. f_equal. ring.
  - exists (up_z (-1)), (-1 * 1), (-1 * (-1 * 1)). split; [apply normalize_axis; auto|].
    split; [apply dot_axis; rewrite Rmult_1_r; exact none64|]. unfold vopp at 1. rewrite scale_axis. split; [apply dot_axis; replace (-1 * (-1 * 1)) with 1 by ring; exact one64|].
    replace (rltb 0 (-1 * 1)) with false by (symmetry; apply rltb_false; lra). cbv zeta.
    replace (1 / 2) with (IZR 1 * / 2) by lra. rewrite (exact_half 1 eq_refl). replace (-1 * (-1 * 1) * (-1 * (-1 * 1))) with 1 by ring. rewrite one64.
    replace (1 - 1) with 0 by ring. rewrite (exact_int 0 eq_refl), Rmult_0_r, (exact_int 0 eq_refl), Rminus_0_r, one64.
    rewrite Rmax_right, sqrt_1, one64 by lra. replace (rltb 0 1) with true by (symmetry; apply rltb_true; lra).
    split; [|reflexivity]. rewrite scale_axis. replace (1 * / 2 * -1) with (IZR (-1) * / 2) by ring. rewrite (round_axis _ (exact_half (-1) eq_refl)).
    replace (1 * / 2 * (-1 * (-1 * 1))) with (IZR 1 * / 2) by ring. rewrite (exact_half 1 eq_refl). replace (1 * / 2 - 1) with (IZR (-1) * / 2) by lra. rewrite (exact_half (-1) eq_refl).
    rewrite scale_axis. replace (-1 * / 2 * 1) with (IZR (-1) * / 2) by ring. rewrite (round_axis _ (exact_half (-1) eq_refl)), add_axis. replace (-1 * / 2 + -1 * / 2) with (-1) by lra. rewrite (round_axis _ none64). apply normalize_axis. auto.
Qed.
