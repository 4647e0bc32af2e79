(** * FlHitsRoot: the rounded roots satisfy their equation *)
From Coq Require Import Reals List Bool ZArith Permutation Lra Lia Psatz.
Import ListNotations.
From Verif Require Import XR XRFacts Lin Fl SpecFl FlFacts FlProps FlHits SpecFlHits FlHitsFacts.
Open Scope R_scope.

Definition one_root (rnd : R -> R) (a b c den t : R) : Prop := 0 <= fl_disc rnd a b c /\ exists sigma, (sigma = 1 \/ sigma = -1) /\ t = fl_root rnd sigma a b c den.
Lemma either_root : forall rnd a b c den t0 t1, fl_roots rnd a b c den t0 t1 -> one_root rnd a b c den t0 /\ one_root rnd a b c den t1.
Proof. intros rnd a b c den t0 t1 (D & -> & ->). split; (split; [auto|]); [exists 1|exists (-1)]; auto. Qed.

Section Root.
  Variable rnd : R -> R.
  Variables u eta : R.
  Hypothesis U0 : 0 <= u.
  Hypothesis E0 : 0 <= eta.
  Hypothesis RW : rounds_within u eta rnd.
  Hypothesis U1 : u <= / 1000000.

  (** rounding a number no larger than k m, where m is far above underflow *)
  Lemma rnd_by : forall x k K m, 0 <= m -> eta <= u * m -> Rabs x <= k * m -> k + 1 <= K -> Rabs (rnd x - x) <= K * u * m.
  Proof.
    intros x k K m M E X L. pose proof (RW x) as H. assert (u * Rabs x <= u * (k * m)) by (apply Rmult_le_compat_l; auto).
    assert (UM : 0 <= u * m) by (apply Rmult_le_pos; auto). assert ((k + 1) * (u * m) <= K * (u * m)) by (apply Rmult_le_compat_r; auto). lra.
  Qed.
  (** and comparing it with a number close to it *)
  Lemma rnd_near : forall x y j k K m, 0 <= m -> eta <= u * m -> Rabs x <= k * m -> Rabs (x - y) <= j * u * m -> k + j + 1 <= K -> Rabs (rnd x - y) <= K * u * m.
  Proof.
    intros x y j k K m M E X H L. pose proof (rnd_by x k (k + 1) m M E X (Rle_refl _)) as B. replace (rnd x - y) with ((rnd x - x) + (x - y)) by ring.
    eapply Rle_trans; [apply abs_tri; eassumption|]. assert (UM : 0 <= u * m) by (apply Rmult_le_pos; auto).
    assert ((k + j + 1) * (u * m) <= K * (u * m)) by (apply Rmult_le_compat_r; auto). lra.
  Qed.
  Lemma near_size : forall x y j k K m, 0 <= m -> 0 <= j <= 100 -> Rabs y <= k * m -> Rabs (x - y) <= j * u * m -> k + / 1000 <= K -> Rabs x <= K * m.
  Proof.
    intros x y j k K m M J Y H L. replace x with ((x - y) + y) by ring. eapply Rle_trans; [apply abs_tri; eassumption|].
    assert (j * u <= / 1000) by nra. assert (j * u * m <= / 1000 * m) by (apply Rmult_le_compat_r; auto).
    assert ((k + / 1000) * m <= K * m) by (apply Rmult_le_compat_r; auto). lra.
  Qed.

  Lemma root_residual : forall s M B C a b c den t, 0 < s -> 0 < M ->
    eta <= u * (s * s) -> eta <= u * (s * M) -> eta <= u * ((s * M) * (s * M)) -> eta <= u * (M / s) ->
    Rabs B <= 2 * (s * M) -> Rabs C <= M * M ->
    Rabs (a - s * s) <= 32 * u * (s * s) -> Rabs (b - B) <= 32 * u * (s * M) -> Rabs (c - C) <= 32 * u * (M * M) -> Rabs (den - 2 * a) <= 32 * u * (s * s) ->
    one_root rnd a b c den t ->
    Rabs (s * s * (t * t) + B * t + C) <= 1280 * u * (M * M) /\ Rabs t <= 3 * (M / s).
  Proof.
    intros s M B C a b c den t S0 M0 Ess EsM ED Et HB HC Ha Hb Hc Hden (D0 & sigma & Sg & T). unfold fl_root, fl_disc in *.
    set (disc := rnd (rnd (b * b) - rnd (rnd (4 * a) * c))) in *. rewrite Rmax_right in T by exact D0.
    set (root := rnd (sqrt disc)) in *. set (num := rnd (- b + sigma * root)) in *.
    assert (P1 : 0 < s * s) by nra. assert (P2 : 0 < s * M) by nra. assert (P3 : 0 < M * M) by nra. assert (P4 : 0 < (s * M) * (s * M)) by nra.
    assert (P5 : 0 < M / s) by (apply Rdiv_lt_0_compat; auto).
    assert (Ba : Rabs a <= 1.001 * (s * s)) by (apply (near_size a (s * s) 32 1); auto; try lra; rewrite Rabs_right; lra).
    assert (Bb : Rabs b <= 2.001 * (s * M)) by (apply (near_size b B 32 2); auto; lra).
    assert (Bc : Rabs c <= 1.001 * (M * M)) by (apply (near_size c C 32 1); auto; lra).
    assert (SM : (s * M) * (s * M) = (s * s) * (M * M)) by ring.
    (* b b *)
    assert (Bbb : Rabs (b * b) <= 4.005 * ((s * M) * (s * M))). { eapply Rle_trans; [apply abs_mul_le; exact Bb|]. apply Rle_trans with (2.001 * 2.001 * ((s * M) * (s * M))); [apply Req_le; ring|]. apply Rmult_le_compat_r; lra. }
    assert (Rbb : Rabs (rnd (b * b) - b * b) <= 5.1 * u * ((s * M) * (s * M))) by (apply (rnd_by _ 4.005); auto; lra).
    (* 4 a c *)
    assert (B4a : Rabs (4 * a) <= 4.004 * (s * s)). { rewrite Rabs_mult, (Rabs_right 4) by lra. lra. }
    assert (R4a : Rabs (rnd (4 * a) - 4 * a) <= 5.004 * u * (s * s)) by (apply (rnd_by _ 4.004); auto; lra).
    assert (B4a' : Rabs (rnd (4 * a)) <= 4.005 * (s * s)) by (apply (near_size _ (4 * a) 5.004 4.004); auto; lra).
    assert (B4ac : Rabs (rnd (4 * a) * c) <= 4.01 * ((s * M) * (s * M))).
    { eapply Rle_trans; [apply abs_mul_le; eassumption|]. rewrite SM. apply Rle_trans with (4.005 * 1.001 * (s * s * (M * M))); [apply Req_le; ring|]. apply Rmult_le_compat_r; [nra|lra]. }
    assert (D4ac : Rabs (rnd (4 * a) * c - 4 * a * c) <= 5.1 * u * ((s * M) * (s * M))).
    { replace (rnd (4 * a) * c - 4 * a * c) with ((rnd (4 * a) - 4 * a) * c) by ring. eapply Rle_trans; [apply abs_mul_le; eassumption|]. rewrite SM.
      apply Rle_trans with (5.004 * 1.001 * u * (s * s * (M * M))); [apply Req_le; ring|]. apply Rmult_le_compat_r; [nra|]. apply Rmult_le_compat_r; lra. }
    assert (R4ac : Rabs (rnd (rnd (4 * a) * c) - 4 * a * c) <= 10.2 * u * ((s * M) * (s * M))) by (apply (rnd_near _ (4 * a * c) 5.1 4.01); auto; lra).
    assert (Bt1 : Rabs (rnd (b * b)) <= 4.1 * ((s * M) * (s * M))) by (apply (near_size _ (b * b) 5.1 4.005); auto; lra).
    assert (Bt2 : Rabs (rnd (rnd (4 * a) * c)) <= 4.1 * ((s * M) * (s * M))).
    { apply (near_size _ (rnd (4 * a) * c) 5.1 4.01); auto; try lra. apply (rnd_by _ 4.01); auto; lra. }
    (* disc *)
    assert (Hd : Rabs (disc - (b * b - 4 * a * c)) <= 32 * u * ((s * M) * (s * M))).
    { unfold disc. apply (rnd_near _ (b * b - 4 * a * c) 15.3 8.2); auto; try lra.
      - unfold Rminus. eapply Rle_trans; [apply abs_tri; [exact Bt1|rewrite Rabs_Ropp; exact Bt2]|]. lra.
      - replace (rnd (b * b) - rnd (rnd (4 * a) * c) - (b * b - 4 * a * c)) with ((rnd (b * b) - b * b) + - (rnd (rnd (4 * a) * c) - 4 * a * c)) by ring.
        eapply Rle_trans; [apply abs_tri; [exact Rbb|rewrite Rabs_Ropp; exact R4ac]|]. lra. }
    assert (Bd : disc <= 8.1 * ((s * M) * (s * M))).
    { assert (X : Rabs (4 * a * c) <= 4.01 * ((s * M) * (s * M))). { eapply Rle_trans; [apply abs_mul_le; eassumption|]. rewrite SM. apply Rle_trans with (4.004 * 1.001 * (s * s * (M * M))); [apply Req_le; ring|]. apply Rmult_le_compat_r; [nra|lra]. }
      assert (X32 : 32 * u * ((s * M) * (s * M)) <= / 1000 * ((s * M) * (s * M))) by (apply Rmult_le_compat_r; lra).
      apply abs_le_both in X, Bbb, Hd. lra. }
    assert (Bs : sqrt disc <= 2.85 * (s * M)). { apply le_of_sqr; [lra|]. rewrite sqrt_sqrt by auto. apply Rle_trans with (8.1 * ((s * M) * (s * M))); auto. nra. }
    assert (As : Rabs (sqrt disc) <= 2.85 * (s * M)) by (rewrite Rabs_right; [auto|apply Rle_ge, sqrt_pos]).
    assert (Hr : Rabs (root - sqrt disc) <= 3.85 * u * (s * M)) by (apply (rnd_by _ 2.85); auto; lra).
    assert (Br : Rabs root <= 2.86 * (s * M)) by (apply (near_size _ (sqrt disc) 3.85 2.85); auto; lra).
    assert (Sr : Rabs (sigma * root) <= 2.86 * (s * M)). { destruct Sg as [-> | ->]; [rewrite Rmult_1_l|replace (-1 * root) with (- root) by ring; rewrite Rabs_Ropp]; auto. }
    assert (BN : Rabs (- b + sigma * root) <= 4.9 * (s * M)). { eapply Rle_trans; [apply abs_tri; [rewrite Rabs_Ropp; exact Bb|exact Sr]|]. lra. }
    assert (Hn : Rabs (num - (- b + sigma * root)) <= 5.9 * u * (s * M)) by (apply (rnd_by _ 4.9); auto; lra).
    assert (Bn : Rabs num <= 4.91 * (s * M)) by (apply (near_size _ (- b + sigma * root) 5.9 4.9); auto; lra).
    assert (BD : 1.99 * (s * s) <= den). { apply abs_le_both in Hden, Ha. assert (32 * u * (s * s) <= / 1000 * (s * s)) by (apply Rmult_le_compat_r; lra). lra. }
    assert (Q : Rabs (num / den) <= 2.5 * (M / s)).
    { eapply Rle_trans; [apply (abs_div_le _ _ (4.91 * (s * M)) (1.99 * (s * s))); auto; lra|]. apply Rle_trans with (4.91 / 1.99 * (M / s)); [apply Req_le; field; lra|]. apply Rmult_le_compat_r; lra. }
    assert (Ht : Rabs (t - num / den) <= 3.5 * u * (M / s)) by (rewrite T; apply (rnd_by _ 2.5); auto; lra).
    destruct (quad (32 * u) s M B C a b c disc root num den t sigma) as (R1 & R2); auto; try lra.
  Qed.

  (** sums of up to three products *)
  Lemma rdot3 : forall l x, rdot rnd l x -> (length l <= 3)%nat -> Rabs (x - rsum l) <= 4 * u * asum l + 6 * eta.
  Proof.
    intros l x H L. pose proof (rdot_error rnd u eta U0 E0 RW _ _ H _ eq_refl) as E. pose proof (asum_nonneg l) as A0.
    assert (G : gam u (length l) <= 1 + 4 * u). { eapply Rle_trans; [apply (gam_mono u U0 _ 3); auto|]. unfold gam. simpl. nra. }
    assert (N : INR (length l) <= 3) by (replace 3 with (INR 3) by (simpl; ring); apply le_INR; auto). pose proof (gam_ge1 u U0 (length l)) as G1.
    pose proof (rdot_pos rnd _ _ H) as L1. assert (N1 : 1 <= INR (length l)) by (change 1 with (INR 1); apply le_INR; auto).
    eapply Rle_trans; [exact E|]. apply Rplus_le_compat; [apply Rmult_le_compat_r; lra|]. apply Rmult_le_compat_r; auto.
    apply Rle_trans with (5 * (1 + 4 * u)); [|lra]. apply Rmult_le_compat; lra.
  Qed.
  Lemma rdot4 : forall v w x, rdot rnd (pairs v w) x -> Rabs (x - vdot v w) <= 5 * u * asum (pairs v w) + 8 * eta.
  Proof.
    intros v w x H. pose proof (rdot_error rnd u eta U0 E0 RW _ _ H 4%nat eq_refl) as E. rewrite rsum_pairs in E. pose proof (asum_nonneg (pairs v w)) as A0.
    pose proof (gam4 u U0 U1) as G. pose proof (gam_ge1 u U0 4) as G1. replace (2 * INR 4 - 1) with 7 in E by (simpl; ring).
    eapply Rle_trans; [exact E|]. apply Rplus_le_compat; apply Rmult_le_compat_r; lra.
  Qed.
End Root.
