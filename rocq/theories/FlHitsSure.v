(** * FlHitsSure: rounding neither invents nor loses a crossing that is clear *)
From Coq Require Import Reals List Bool ZArith Permutation Lra Lia Psatz.
Import ListNotations.
From Verif Require Import XR XRFacts Lin Fl SpecFl FlFacts FlProps FlHits SpecFlHits FlHitsFacts FlHitsRoot FlHitsProps FlHitsOn.
Open Scope R_scope.

Section Signs.
  Variable rnd : R -> R.
  Variables u eta : R.
  Hypothesis U0 : 0 <= u.
  Hypothesis E0 : 0 <= eta.
  Hypothesis RW : rounds_within u eta rnd.
  Hypothesis U1 : u <= / 1000000.
  Variables s M B C a b c : R.
  Hypothesis S0 : 0 < s.
  Hypothesis M0 : 0 < M.
  Hypothesis Ess : eta <= u * (s * s).
  Hypothesis EsM : eta <= u * (s * M).
  Hypothesis ED : eta <= u * ((s * M) * (s * M)).
  Hypothesis Et : eta <= u * (M / s).
  Hypothesis HB : Rabs B <= 2 * (s * M).
  Hypothesis HC : Rabs C <= M * M.
  Hypothesis Ha : Rabs (a - s * s) <= 32 * u * (s * s).
  Hypothesis Hb : Rabs (b - B) <= 32 * u * (s * M).
  Hypothesis Hc : Rabs (c - C) <= 32 * u * (M * M).
  Let W := (s * M) * (s * M).
  Let P1 : 0 < s * s. Proof. nra. Qed.
  Let P2 : 0 < s * M. Proof. nra. Qed.
  Let P3 : 0 < M * M. Proof. nra. Qed.
  Let P4 : 0 < W. Proof. unfold W. nra. Qed.
  Let SM : W = (s * s) * (M * M). Proof. unfold W. ring. Qed.
  Let Ba : Rabs a <= 1.001 * (s * s). Proof. apply (near_size u U0 U1 a (s * s) 32 1); auto; try lra. rewrite Rabs_right; lra. Qed.
  Let Bb : Rabs b <= 2.001 * (s * M). Proof. apply (near_size u U0 U1 b B 32 2); auto; lra. Qed.
  Let Bc : Rabs c <= 1.001 * (M * M). Proof. apply (near_size u U0 U1 c C 32 1); auto; lra. Qed.
  Let UW : 0 <= u * W. Proof. apply Rmult_le_pos; lra. Qed.
  Let UW2 : u * W <= / 1000000 * W. Proof. apply Rmult_le_compat_r; lra. Qed.

  Lemma disc_error : Rabs (fl_disc rnd a b c - (b * b - 4 * a * c)) <= 32 * u * W.
  Proof.
    assert (Bbb : Rabs (b * b) <= 4.005 * W). { eapply Rle_trans; [apply abs_mul_le; exact Bb|]. apply Rle_trans with (2.001 * 2.001 * W); [apply Req_le; unfold W; ring|]. apply Rmult_le_compat_r; lra. }
    assert (Rbb : Rabs (rnd (b * b) - b * b) <= 5.1 * u * W) by (apply (rnd_by rnd u eta U0 RW _ 4.005); auto; lra).
    assert (B4a : Rabs (4 * a) <= 4.004 * (s * s)). { rewrite Rabs_mult, (Rabs_right 4) by lra. lra. }
    assert (R4a : Rabs (rnd (4 * a) - 4 * a) <= 5.004 * u * (s * s)) by (apply (rnd_by rnd u eta U0 RW _ 4.004); auto; lra).
    assert (B4a' : Rabs (rnd (4 * a)) <= 4.005 * (s * s)) by (apply (near_size u U0 U1 _ (4 * a) 5.004 4.004); auto; lra).
    assert (B4ac : Rabs (rnd (4 * a) * c) <= 4.01 * W).
    { eapply Rle_trans; [apply abs_mul_le; [exact B4a'|exact Bc]|]. rewrite SM. apply Rle_trans with (4.005 * 1.001 * (s * s * (M * M))); [apply Req_le; ring|]. apply Rmult_le_compat_r; [nra|lra]. }
    assert (D4ac : Rabs (rnd (4 * a) * c - 4 * a * c) <= 5.1 * u * W).
    { replace (rnd (4 * a) * c - 4 * a * c) with ((rnd (4 * a) - 4 * a) * c) by ring. eapply Rle_trans; [apply abs_mul_le; [exact R4a|exact Bc]|].
      apply Rle_trans with (5.004 * 1.001 * u * W); [rewrite SM; apply Req_le; ring|]. apply Rmult_le_compat_r; [lra|]. apply Rmult_le_compat_r; lra. }
    assert (R4ac : Rabs (rnd (rnd (4 * a) * c) - 4 * a * c) <= 10.2 * u * W) by (apply (rnd_near rnd u eta U0 RW _ (4 * a * c) 5.1 4.01); auto; lra).
    assert (Bt1 : Rabs (rnd (b * b)) <= 4.1 * W) by (apply (near_size u U0 U1 _ (b * b) 5.1 4.005); auto; lra).
    assert (Bt2 : Rabs (rnd (rnd (4 * a) * c)) <= 4.1 * W).
    { apply (near_size u U0 U1 _ (rnd (4 * a) * c) 5.1 4.01); auto; try lra. apply (rnd_by rnd u eta U0 RW _ 4.01); auto; lra. }
    unfold fl_disc. apply (rnd_near rnd u eta U0 RW _ (b * b - 4 * a * c) 15.3 8.2); auto; try lra.
    - unfold Rminus. eapply Rle_trans; [apply abs_tri; [exact Bt1|rewrite Rabs_Ropp; exact Bt2]|]. lra.
    - replace (rnd (b * b) - rnd (rnd (4 * a) * c) - (b * b - 4 * a * c)) with ((rnd (b * b) - b * b) + - (rnd (rnd (4 * a) * c) - 4 * a * c)) by ring.
      eapply Rle_trans; [apply abs_tri; [exact Rbb|rewrite Rabs_Ropp; exact R4ac]|]. lra.
  Qed.
  Lemma disc_true : Rabs (fl_disc rnd a b c - (B * B - 4 * (s * s) * C)) <= 420 * u * W.
  Proof.
    pose proof disc_error as D.
    assert (X1 : Rabs ((b - B) * (b + B)) <= 32 * u * (s * M) * (4.001 * (s * M))). { apply abs_mul_le; auto. eapply Rle_trans; [apply abs_tri; [exact Bb|exact HB]|]. lra. }
    assert (X2 : Rabs ((a - s * s) * c) <= 32 * u * (s * s) * (1.001 * (M * M))) by (apply abs_mul_le; auto).
    assert (X3 : Rabs ((s * s) * (c - C)) <= s * s * (32 * u * (M * M))) by (apply abs_mul_le; auto; rewrite Rabs_right; lra).
    replace (fl_disc rnd a b c - (B * B - 4 * (s * s) * C)) with ((fl_disc rnd a b c - (b * b - 4 * a * c)) + ((b - B) * (b + B) + -4 * ((a - s * s) * c + s * s * (c - C)))) by ring.
    eapply Rle_trans; [apply abs_tri; [exact D|apply abs_tri; [exact X1|rewrite Rabs_mult; rewrite (Rabs_left (-4)) by lra; apply Rmult_le_compat_l; [lra|apply abs_tri; [exact X2|exact X3]]]]|].
    replace (32 * u * (s * M) * (4.001 * (s * M))) with (32 * 4.001 * (u * W)) by (unfold W; ring).
    replace (32 * u * (s * s) * (1.001 * (M * M))) with (32 * 1.001 * (u * W)) by (rewrite SM; ring). replace (s * s * (32 * u * (M * M))) with (32 * (u * W)) by (rewrite SM; ring). lra.
  Qed.
  (** the computed square root *)
  Lemma root_sqr : 0 <= fl_disc rnd a b c -> let root := rnd (sqrt (Rmax 0 (fl_disc rnd a b c))) in
    Rabs (root * root - fl_disc rnd a b c) <= 23 * u * W /\ Rabs root <= 2.86 * (s * M) /\ - (u * (s * M)) <= root.
  Proof.
    intros D0. cbn zeta. rewrite Rmax_right by auto. set (disc := fl_disc rnd a b c) in *. set (root := rnd (sqrt disc)).
    assert (Bd : disc <= 8.1 * W).
    { pose proof disc_true as D. fold disc in D. assert (Y1 : Rabs (B * B) <= 2 * (s * M) * (2 * (s * M))) by (apply abs_mul_le; auto).
      assert (Y2 : Rabs (s * s * C) <= s * s * (M * M)) by (apply abs_mul_le; auto; rewrite Rabs_right; lra). rewrite <- SM in Y2. replace (2 * (s * M) * (2 * (s * M))) with (4 * W) in Y1 by (unfold W; ring).
      apply abs_le_both in D, Y1, Y2. lra. }
    assert (Bs : sqrt disc <= 2.85 * (s * M)). { apply le_of_sqr; [lra|]. rewrite sqrt_sqrt by auto. apply Rle_trans with (8.1 * W); auto. replace (2.85 * (s * M) * (2.85 * (s * M))) with (2.85 * 2.85 * W) by (unfold W; ring). lra. }
    pose proof (sqrt_pos disc) as Q0. assert (As : Rabs (sqrt disc) <= 2.85 * (s * M)) by (rewrite Rabs_right; lra).
    assert (Hr : Rabs (root - sqrt disc) <= 3.85 * u * (s * M)) by (apply (rnd_by rnd u eta U0 RW _ 2.85); auto; lra).
    assert (Br : Rabs root <= 2.86 * (s * M)) by (apply (near_size u U0 U1 _ (sqrt disc) 3.85 2.85); auto; lra).
    split; [|split; auto].
    - rewrite <- (sqrt_sqrt disc) at 1 by auto. replace (root * root - sqrt disc * sqrt disc) with ((root - sqrt disc) * (root + sqrt disc)) by ring.
      eapply Rle_trans; [apply abs_mul_le; [exact Hr|apply abs_tri; [exact Br|exact As]]|]. replace (3.85 * u * (s * M) * (2.86 * (s * M) + 2.85 * (s * M))) with (3.85 * 5.71 * (u * W)) by (unfold W; lra). lra.
    - pose proof (RW (sqrt disc)) as H. fold root in H. rewrite (Rabs_right (sqrt disc)) in H by lra. apply abs_le_both in H. assert (u * sqrt disc <= 1 * sqrt disc) by (apply Rmult_le_compat_r; lra). lra.
  Qed.

  (** from the sign of the numerator to the sign of the distance *)
  Lemma sign_neg : forall x den, Rabs (den - 2 * a) <= 32 * u * (s * s) -> x <= - (100 * u * (s * M)) -> Rabs x <= 5 * (s * M) -> 0 < u -> rnd (rnd x / den) < 0.
  Proof.
    intros x den HD X BX UP. assert (BD : 1.99 * (s * s) <= den <= 2.01 * (s * s)). { apply abs_le_both in HD, Ha. assert (32 * u * (s * s) <= / 1000 * (s * s)) by (apply Rmult_le_compat_r; lra). lra. }
    pose proof (RW x) as H. apply abs_le_both in H. assert (X0 : x < 0) by (assert (0 < u * (s * M)) by (apply Rmult_lt_0_compat; lra); lra). rewrite (Rabs_left x) in * by auto.
    assert (u * - x <= / 1000000 * - x) by (apply Rmult_le_compat_r; lra). assert (N : rnd x <= - (98 * u * (s * M))) by lra.
    assert (UM : 0 < u * (M / s)) by (apply Rmult_lt_0_compat; auto; apply Rdiv_lt_0_compat; auto).
    assert (Y : rnd x / den <= - (40 * u * (M / s))).
    { apply (Rmult_le_reg_r den); [lra|]. replace (rnd x / den * den) with (rnd x) by (field; lra). eapply Rle_trans; [exact N|].
      assert (A : u * (M / s) * den <= u * (M / s) * (2.01 * (s * s))) by (apply Rmult_le_compat_l; lra). replace (u * (M / s) * (2.01 * (s * s))) with (2.01 * (u * (s * M))) in A by (field; lra). lra. }
    pose proof (RW (rnd x / den)) as H2. apply abs_le_both in H2. rewrite (Rabs_left (rnd x / den)) in H2 by lra. assert (u * - (rnd x / den) <= / 1000000 * - (rnd x / den)) by (apply Rmult_le_compat_r; lra). lra.
  Qed.
  Lemma sign_pos : forall x den, Rabs (den - 2 * a) <= 32 * u * (s * s) -> 100 * u * (s * M) <= x -> Rabs x <= 5 * (s * M) -> 0 < u -> 0 < rnd (rnd x / den).
  Proof.
    intros x den HD X BX UP. assert (BD : 1.99 * (s * s) <= den <= 2.01 * (s * s)). { apply abs_le_both in HD, Ha. assert (32 * u * (s * s) <= / 1000 * (s * s)) by (apply Rmult_le_compat_r; lra). lra. }
    pose proof (RW x) as H. apply abs_le_both in H. assert (X0 : 0 < x) by (assert (0 < u * (s * M)) by (apply Rmult_lt_0_compat; lra); lra). rewrite (Rabs_right x) in * by lra.
    assert (u * x <= / 1000000 * x) by (apply Rmult_le_compat_r; lra). assert (N : 98 * u * (s * M) <= rnd x) by lra.
    assert (UM : 0 < u * (M / s)) by (apply Rmult_lt_0_compat; auto; apply Rdiv_lt_0_compat; auto).
    assert (Y : 40 * u * (M / s) <= rnd x / den).
    { apply (Rmult_le_reg_r den); [lra|]. replace (rnd x / den * den) with (rnd x) by (field; lra). eapply Rle_trans; [|exact N].
      assert (A : u * (M / s) * den <= u * (M / s) * (2.01 * (s * s))) by (apply Rmult_le_compat_l; lra). replace (u * (M / s) * (2.01 * (s * s))) with (2.01 * (u * (s * M))) in A by (field; lra). lra. }
    pose proof (RW (rnd x / den)) as H2. apply abs_le_both in H2. rewrite (Rabs_right (rnd x / den)) in H2 by lra. assert (u * (rnd x / den) <= / 1000000 * (rnd x / den)) by (apply Rmult_le_compat_r; lra). lra.
  Qed.

  (** A ray that starts clearly outside and does not approach: both roots are behind it *)
  Lemma behind : forall den t0 t1, 0 < u -> Rabs (den - 2 * a) <= 32 * u * (s * s) -> 0 <= B -> 256 * u * (M * M) <= C -> fl_roots rnd a b c den t0 t1 -> t0 < 0 /\ t1 < 0.
  Proof.
    intros den t0 t1 UP HD B0 HCC (D0 & -> & ->). destruct (root_sqr D0) as (RS & BR & RL). cbn zeta in *. unfold fl_root. set (root := rnd (sqrt (Rmax 0 (fl_disc rnd a b c)))) in *.
    pose proof disc_true as DT. pose proof disc_error as DE. set (disc := fl_disc rnd a b c) in *.
    assert (USM : 0 < u * (s * M)) by (apply Rmult_lt_0_compat; lra). assert (UWP : 0 < u * W) by (apply Rmult_lt_0_compat; lra).
    assert (CC : 256 * (u * W) <= s * s * C). { rewrite SM. replace (256 * (u * (s * s * (M * M)))) with (s * s * (256 * u * (M * M))) by ring. apply Rmult_le_compat_l; lra. }
    apply abs_le_both in DT. assert (BB : 604 * (u * W) <= B * B) by lra.
    assert (BL : 1000 * (u * (s * M)) <= B).
    { destruct (Rle_dec (1000 * (u * (s * M))) B); auto. exfalso. assert (B * B <= 1000 * (u * (s * M)) * (1000 * (u * (s * M)))) by (apply Rmult_le_compat; lra).
      replace (1000 * (u * (s * M)) * (1000 * (u * (s * M)))) with (1000000 * u * (u * W)) in H by (unfold W; ring). assert (1000000 * u * (u * W) <= 1 * (u * W)) by (apply Rmult_le_compat_r; lra). lra. }
    assert (Hbb := abs_le_both _ _ Hb). assert (b0 : 900 * (u * (s * M)) <= b) by lra.
    (* root is clearly smaller than b *)
    assert (AC : 220 * (u * W) <= a * c).
    { apply abs_le_both in Ha, Hc. assert (c1 : 224 * u * (M * M) <= c) by lra. assert (a1 : 0.999 * (s * s) <= a) by (assert (32 * u * (s * s) <= / 1000 * (s * s)) by (apply Rmult_le_compat_r; lra); lra).
      assert (UM0 : 0 <= u * (M * M)) by (apply Rmult_le_pos; lra).
      apply Rle_trans with (0.999 * (s * s) * (224 * u * (M * M))); [replace (0.999 * (s * s) * (224 * u * (M * M))) with (0.999 * 224 * (u * W)) by (rewrite SM; lra); lra|]. apply Rmult_le_compat; lra. }
    apply abs_le_both in DE, RS. assert (GAP : 800 * (u * W) <= b * b - root * root) by lra.
    assert (Bb' := abs_le_both _ _ Bb). assert (BR' := abs_le_both _ _ BR).
    assert (G2 : 160 * (u * (s * M)) <= b - root).
    { destruct (Rle_dec (160 * (u * (s * M))) (b - root)); auto. exfalso. assert (P : 0 <= b + root <= 4.9 * (s * M)) by lra.
      assert (K : (b - root) * (b + root) <= 160 * (u * (s * M)) * (4.9 * (s * M))).
      { apply Rle_trans with (160 * (u * (s * M)) * (b + root)); [apply Rmult_le_compat_r; lra|apply Rmult_le_compat_l; lra]. }
      replace ((b - root) * (b + root)) with (b * b - root * root) in K by ring. replace (160 * (u * (s * M)) * (4.9 * (s * M))) with (160 * 4.9 * (u * W)) in K by (unfold W; lra). lra. }
    split; apply sign_neg; auto; try lra.
    all: rewrite ?Rmult_1_l; try (apply Rabs_le; lra). 
  Qed.
  (** A ray that starts clearly inside: one root is behind it, the other ahead *)
  Lemma within : forall den, 0 < u -> Rabs (den - 2 * a) <= 32 * u * (s * s) -> C <= - (256 * u * (M * M)) ->
    0 <= fl_disc rnd a b c /\ fl_root rnd (-1) a b c den < 0 < fl_root rnd 1 a b c den.
  Proof.
    intros den UP HD HCC.
    assert (USM : 0 < u * (s * M)) by (apply Rmult_lt_0_compat; lra). assert (UWP : 0 < u * W) by (apply Rmult_lt_0_compat; lra).
    assert (AC : a * c <= - (220 * (u * W))).
    { apply abs_le_both in Ha, Hc. assert (c1 : c <= - (224 * u * (M * M))) by lra. assert (a1 : 0.999 * (s * s) <= a) by (assert (32 * u * (s * s) <= / 1000 * (s * s)) by (apply Rmult_le_compat_r; lra); lra).
      assert (UM0 : 0 <= u * (M * M)) by (apply Rmult_le_pos; lra).
      assert (220 * (u * W) <= a * - c); [|lra]. apply Rle_trans with (0.999 * (s * s) * (224 * u * (M * M))); [replace (0.999 * (s * s) * (224 * u * (M * M))) with (0.999 * 224 * (u * W)) by (rewrite SM; lra); lra|]. apply Rmult_le_compat; lra. }
    pose proof disc_error as DE. set (disc := fl_disc rnd a b c) in *. apply abs_le_both in DE. pose proof (Rle_0_sqr b) as b2. unfold Rsqr in b2.
    assert (D0 : 0 <= disc) by lra. split; auto. destruct (root_sqr D0) as (RS & BR & RL). cbn zeta in *. unfold fl_root. set (root := rnd (sqrt (Rmax 0 (fl_disc rnd a b c)))) in *. fold disc in RS.
    apply abs_le_both in RS. assert (GAP : 800 * (u * W) <= root * root - b * b) by lra.
    assert (Bb' := abs_le_both _ _ Bb). assert (BR' := abs_le_both _ _ BR).
    (* root is positive and clearly larger than |b| *)
    assert (R0 : 0 < root).
    { destruct (Rlt_dec 0 root); auto. exfalso. assert (root * root <= (u * (s * M)) * (u * (s * M))) by (replace (root * root) with (- root * - root) by ring; apply Rmult_le_compat; lra).
      replace ((u * (s * M)) * (u * (s * M))) with (u * (u * W)) in H by (unfold W; ring). assert (u * (u * W) <= 1 * (u * W)) by (apply Rmult_le_compat_r; lra). lra. }
    assert (G2 : 160 * (u * (s * M)) <= root - Rabs b).
    { destruct (Rle_dec (160 * (u * (s * M))) (root - Rabs b)); auto. exfalso. pose proof (Rabs_pos b) as Pb. assert (P : 0 <= root + Rabs b <= 4.9 * (s * M)) by lra.
      assert (K : (root - Rabs b) * (root + Rabs b) <= 160 * (u * (s * M)) * (4.9 * (s * M))).
      { apply Rle_trans with (160 * (u * (s * M)) * (root + Rabs b)); [apply Rmult_le_compat_r; lra|apply Rmult_le_compat_l; lra]. }
      assert (E2 : Rabs b * Rabs b = b * b) by (rewrite <- Rabs_mult; apply Rabs_right; lra).
      replace ((root - Rabs b) * (root + Rabs b)) with (root * root - Rabs b * Rabs b) in K by ring. rewrite E2 in K. replace (160 * (u * (s * M)) * (4.9 * (s * M))) with (160 * 4.9 * (u * W)) in K by (unfold W; lra). lra. }
    assert (Bab := abs_le_both b (Rabs b) (Rle_refl _)).
    split; [apply sign_neg|apply sign_pos]; auto; try lra; rewrite ?Rmult_1_l; try (apply Rabs_le; lra).
  Qed.
End Signs.
