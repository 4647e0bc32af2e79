(** * FlProps: rounding changes the length of directions very little *)
From Coq Require Import Reals List Bool ZArith Permutation Lra Lia Psatz.
Import ListNotations.
From Verif Require Import XR XRFacts Lin Fl SpecFl FlFacts.
Open Scope R_scope.

Lemma abs_le_both : forall x a, Rabs x <= a -> - a <= x <= a.
Proof. intros x a H. pose proof (Rle_abs x). pose proof (Rle_abs (- x)). rewrite Rabs_Ropp in H1. lra. Qed.

Section Unit.
  Variable rnd : R -> R.
  Variables u eta : R.
  Hypothesis U0 : 0 <= u.
  Hypothesis E0 : 0 <= eta.
  Hypothesis RW : rounds_within u eta rnd.
  Hypothesis U1 : u <= / 1000000.
  Hypothesis E1 : eta <= u * / 1000000.

  Lemma norm_error : forall v s, sizeable u eta v -> fl_norm rnd v s -> Rabs (s - vnorm v) <= 16 * u * vnorm v.
  Proof.
    intros v s (P & Z) (q & D & ->). pose proof (dot_error rnd u eta U0 E0 RW U1 v v q D) as B. rewrite vnorm_sqr in B.
    pose proof (vnorm_sqr v) as M2. pose proof (vnorm_nonneg v) as M0. set (m := vnorm v) in *. set (N := vdot v v) in *.
    assert (MP : 0 < m) by nra. apply abs_le_both in B. 
    assert (Q : (1 - 13 * u) * N <= q <= (1 + 13 * u) * N) by nra.
    assert (Q0 : 0 <= q) by nra.
    assert (S1 : sqrt q <= (1 + 13 * u) * m). { apply le_of_sqr; [nra|]. rewrite sqrt_sqrt by auto. nra. }
    assert (S2 : (1 - 13 * u) * m <= sqrt q). { apply le_of_sqr; [apply sqrt_pos|]. rewrite sqrt_sqrt by auto. nra. }
    assert (S3 : Rabs (sqrt q - m) <= 13 * u * m) by (apply Rabs_le; split; lra).
    pose proof (rnd_at rnd u eta U0 RW _ _ _ S3) as S4. rewrite (Rabs_right m) in S4 by lra.
    assert (EM : eta <= u * m). { destruct (Rle_dec 1 m); [nra|]. assert (N <= m) by nra. nra. }
    eapply Rle_trans; [exact S4|]. assert (u * (13 * u * m) <= u * m) by nra. lra.
  Qed.
  Lemma normalize_unit : forall v d, sizeable u eta v -> fl_normalize rnd v d -> Rabs (vnorm d - 1) <= 20 * u.
  Proof.
    intros v d SZ (s & F & ->). pose proof (norm_error v s SZ F) as B. pose proof (vnorm_sqr v) as M2. pose proof (vnorm_nonneg v) as M0.
    destruct SZ as (P & _). set (m := vnorm v) in *. assert (MP : 0 < m) by nra. apply abs_le_both in B. assert (SP : 0 < s) by nra.
    pose proof (vround_close rnd u eta U0 E0 RW (vscale (/ s) v)) as V. rewrite vnorm_scale in V. fold m in V.
    rewrite (Rabs_right (/ s)) in V by (apply Rle_ge; left; apply Rinv_0_lt_compat; auto).
    pose proof (vnorm_close (vround rnd (vscale (/ s) v)) (vscale (/ s) v)) as C. rewrite vnorm_scale in C. fold m in C.
    rewrite (Rabs_right (/ s)) in C by (apply Rle_ge; left; apply Rinv_0_lt_compat; auto).
    assert (K1 : / s * m <= 1 + 17 * u). { apply (Rmult_le_reg_l s); auto. rewrite <- Rmult_assoc, Rinv_r, Rmult_1_l by lra. nra. }
    assert (K2 : 1 - 17 * u <= / s * m). { apply (Rmult_le_reg_l s); auto. rewrite <- Rmult_assoc, Rinv_r, Rmult_1_l by lra. nra. }
    set (k := / s * m) in *. set (x := vnorm (vround rnd (vscale (/ s) v))) in *. apply abs_le_both in C. apply Rabs_le.
    assert (u * k <= u + 17 * u * u) by nra. assert (17 * u * u <= u) by nra. assert (17 * u * u <= / 2 * u) by nra. split; lra.
  Qed.
  Lemma normal_unit : forall raw n, sizeable u eta raw -> fl_normal rnd raw n -> Rabs (vnorm n - 1) <= 20 * u.
  Proof.
    intros raw n SZ (m & s & F & S & ->). rewrite vnorm_scale. replace (Rabs s) with 1. rewrite Rmult_1_l. eapply normalize_unit; eauto.
    destruct S as [-> | ->]; [rewrite Rabs_R1; auto|rewrite Rabs_left by lra; ring].
  Qed.
  Lemma unit_sqr : forall n, Rabs (vnorm n - 1) <= 20 * u -> vnorm n <= 1 + 20 * u /\ 1 - 20 * u <= vnorm n /\ Rabs (vdot n n - 1) <= 41 * u.
  Proof.
    intros n H. apply abs_le_both in H. pose proof (vnorm_sqr n) as S. split; [lra|]. split; [lra|]. rewrite <- S. set (k := vnorm n) in *. apply Rabs_le. split; nra.
  Qed.

  (** A vector rounded entry by entry, close to one that is known *)
  Lemma vsub_scale : forall x y k l, vnorm (vsub (vscale x k) (vscale y l)) <= Rabs x * vnorm (vsub k l) + Rabs (x - y) * vnorm l.
  Proof.
    intros x y k l. replace (vsub (vscale x k) (vscale y l)) with (vadd (vscale x (vsub k l)) (vscale (x - y) l)) by (unfold vsub, vadd, vopp, vscale; destruct k, l; cbn; f_equal; ring).
    eapply Rle_trans; [apply vnorm_add|]. rewrite !vnorm_scale. lra.
  Qed.
  Lemma vsub_add : forall a b c d, vnorm (vsub (vadd a b) (vadd c d)) <= vnorm (vsub a c) + vnorm (vsub b d).
  Proof.
    intros. replace (vsub (vadd a b) (vadd c d)) with (vadd (vsub a c) (vsub b d)) by (unfold vsub, vadd, vopp, vscale; destruct a, b, c, d; cbn; f_equal; ring). apply vnorm_add.
  Qed.
  Lemma vsub_refl : forall a, vnorm (vsub a a) = 0.
  Proof.
    intro a. unfold vnorm. replace (vdot (vsub a a) (vsub a a)) with 0; [apply sqrt_0|]. unfold vdot, vsub, vadd, vopp, vscale; cbn. ring.
  Qed.
  Lemma vsub_sub : forall a b c, vnorm (vsub (vsub a b) (vsub a c)) = vnorm (vsub b c).
  Proof.
    intros. rewrite <- (vnorm_opp (vsub b c)). f_equal. unfold vsub, vadd, vopp, vscale; destruct a, b, c; cbn; f_equal; ring.
  Qed.
  Lemma norm_at : forall v w e, vnorm (vsub v w) <= e -> vnorm w - e <= vnorm v <= vnorm w + e.
  Proof. intros v w e H. pose proof (vnorm_close v w) as C. apply abs_le_both in C. lra. Qed.

  (** ** Mirrors *)
  Lemma reflect_drift : forall v n d, vnorm v <= 2 -> Rabs (vnorm n - 1) <= 20 * u -> fl_reflect rnd v n d ->
    Rabs (vnorm d - vnorm v) <= 512 * u.
  Proof.
    intros v n d V N (x & D & ->). destruct (unit_sqr n N) as (N1 & N2 & N3). pose proof (vnorm_nonneg v) as V0.
    pose proof (dot_error rnd u eta U0 E0 RW U1 v n x D) as DX.
    assert (VN : vnorm v * vnorm n <= 2001 / 1000) by nra.
    assert (DX' : Rabs (x - vdot v n) <= 11 * u) by nra. clear DX.
    assert (VD : Rabs (vdot v n) <= 2001 / 1000).
    { apply Rabs_le. pose proof (vdot_le v n). pose proof (vdot_le (vopp v) n). rewrite vnorm_opp in H0.
      replace (vdot (vopp v) n) with (- vdot v n) in H0 by (unfold vdot, vopp, vscale; cbn; ring). lra. }
    assert (X : Rabs x <= 2002 / 1000). { replace x with (vdot v n + (x - vdot v n)) by ring. eapply Rle_trans; [apply abs_tri; [exact VD|exact DX']|]. nra. }
    pose proof (vround_close rnd u eta U0 E0 RW (vscale 2 n)) as M1. rewrite vnorm_scale, (Rabs_right 2) in M1 by lra.
    set (m := vround rnd (vscale 2 n)) in *.
    assert (M2 : vnorm (vsub m (vscale 2 n)) <= 3 * u) by nra. clear M1.
    pose proof (vsub_scale x (vdot v n) m (vscale 2 n)) as P1. rewrite (vnorm_scale 2 n), (Rabs_right 2) in P1 by lra.
    assert (P2 : vnorm (vsub (vscale x m) (vscale (vdot v n) (vscale 2 n))) <= 30 * u).
    { eapply Rle_trans; [exact P1|]. assert (Rabs x * vnorm (vsub m (vscale 2 n)) <= 2002 / 1000 * (3 * u)) by (apply Rmult_le_compat; auto; [apply Rabs_pos|apply vnorm_nonneg]).
      assert (Rabs (x - vdot v n) * (2 * vnorm n) <= 11 * u * (2001 / 1000)) by (apply Rmult_le_compat; [apply Rabs_pos| |auto|nra]; pose proof (vnorm_nonneg n); lra). lra. }
    clear P1. apply (vround_at rnd u eta U0 E0 RW) in P2. rewrite !vnorm_scale, (Rabs_right 2) in P2 by lra.
    assert (P3 : vnorm (vsub (vround rnd (vscale x m)) (vscale (vdot v n) (vscale 2 n))) <= 36 * u).
    { eapply Rle_trans; [exact P2|]. assert (Rabs (vdot v n) * (2 * vnorm n) <= 2001 / 1000 * (2001 / 1000)) by (apply Rmult_le_compat; [apply Rabs_pos| |auto|nra]; pose proof (vnorm_nonneg n); lra). nra. }
    clear P2. rewrite <- (vsub_sub v) in P3. apply (vround_at rnd u eta U0 E0 RW) in P3.
    set (w := vsub v (vscale (vdot v n) (vscale 2 n))) in *.
    assert (W2 : vdot w w = vdot v v + 4 * (vdot v n * vdot v n) * (vdot n n - 1)) by (unfold w, vdot, vsub, vadd, vopp, vscale; cbn; ring).
    assert (WN : Rabs (vnorm w - vnorm v) <= 334 * u).
    { rewrite <- !vnorm_sqr in W2. rewrite (vnorm_sqr n) in W2. pose proof (vnorm_nonneg w) as W0. apply abs_le_both in N3.
      pose proof (cauchy4 v n) as CA. rewrite <- !vnorm_sqr in CA. set (p := vnorm w) in *. set (q := vnorm v) in *. set (c2 := vdot v n * vdot v n) in *.
      assert (C0 : 0 <= c2) by (unfold c2; nra). assert (C1 : c2 <= 1001 / 1000 * (q * q)). { eapply Rle_trans; [exact CA|]. rewrite (Rmult_comm (1001 / 1000)). apply Rmult_le_compat_l; nra. } clear CA.
      assert (DI : - (165 * u * (q * q)) <= p * p - q * q <= 165 * u * (q * q)).
      { assert (c2 * (vdot n n - 1) <= c2 * (41 * u)) by (apply Rmult_le_compat_l; lra). assert (- (c2 * (41 * u)) <= c2 * (vdot n n - 1)) by nra.
        assert (c2 * (41 * u) <= 1001 / 1000 * (q * q) * (41 * u)) by (apply Rmult_le_compat_r; lra). nra. }
      apply Rabs_le. destruct (Req_dec q 0) as [Q0|Q0].
      - rewrite Q0 in *. assert (p = 0) by nra. lra.
      - assert (QP : 0 < q) by lra. assert (p <= q + 165 * u * q). { apply le_of_sqr; nra. } assert (q - 165 * u * q <= p). { apply le_of_sqr; [lra|]. nra. } nra. }
    apply abs_le_both in WN. assert (WB : vnorm w <= 2001 / 1000) by nra.
    assert (FIN : vnorm (vsub (vround rnd (vsub v (vround rnd (vscale x m)))) w) <= 40 * u). { eapply Rle_trans; [exact P3|]. nra. }
    apply norm_at in FIN. apply Rabs_le. split; lra.
  Qed.

  (** ** Glasses *)
  Ltac by_rnd H := eapply Rle_trans; [apply (rnd_at rnd u eta U0 RW _ _ _ H)|].
  Lemma refracted_size : forall v1 nn c1 r, Rabs (vnorm v1 - 1) <= 20 * u -> Rabs (vnorm nn - 1) <= 20 * u ->
    Rabs (c1 - - vdot v1 nn) <= 6 * u -> Rabs r <= 4001 / 1000 ->
    let radicand := rnd (1 - rnd (rnd (r * r) * rnd (1 - rnd (c1 * c1)))) in
    let w := if rltb 0 radicand
      then vround rnd (vadd (vround rnd (vscale r v1)) (vround rnd (vscale (rnd (rnd (r * c1) - rnd (sqrt (Rmax 0 radicand)))) nn)))
      else vround rnd (vadd v1 (vround rnd (vscale (rnd (2 * c1)) nn))) in
    9 / 10 <= vnorm w <= 11 / 10.
  Proof.
    intros v1 nn c1 r HV HN HC HR radicand w. destruct (unit_sqr v1 HV) as (V1 & V2 & V3). destruct (unit_sqr nn HN) as (N1 & N2 & N3).
    set (c := - vdot v1 nn) in *.
    assert (CB : Rabs c <= 1 + 41 * u).
    { unfold c. rewrite Rabs_Ropp. apply Rabs_le. pose proof (vdot_le v1 nn) as A. pose proof (vdot_le (vopp v1) nn) as B. rewrite vnorm_opp in B.
      replace (vdot (vopp v1) nn) with (- vdot v1 nn) in B by (unfold vdot, vopp, vscale; cbn; ring). assert (vnorm v1 * vnorm nn <= 1 + 41 * u) by nra. lra. }
    apply abs_le_both in CB. pose proof (abs_le_both _ _ HC) as HC'. pose proof (abs_le_both _ _ HR) as HR'.
    assert (C2 : 0 <= c * c <= 1 + 83 * u) by nra. assert (R2 : 0 <= r * r <= 16009 / 1000) by nra.
    assert (A0 : Rabs (c1 * c1 - c * c) <= 13 * u).
    { replace (c1 * c1 - c * c) with ((c1 - c) * (c1 + c)) by ring. rewrite Rabs_mult. apply Rle_trans with (6 * u * (201 / 100)); [|lra].
      apply Rmult_le_compat; try apply Rabs_pos; auto. apply Rabs_le. lra. }
    assert (A1 : Rabs (rnd (c1 * c1) - c * c) <= 15 * u). { by_rnd A0. rewrite (Rabs_right (c * c)) by lra. nra. }
    assert (A2 : Rabs (1 - rnd (c1 * c1) - (1 - c * c)) <= 15 * u) by (replace (1 - rnd (c1 * c1) - (1 - c * c)) with (- (rnd (c1 * c1) - c * c)) by ring; rewrite Rabs_Ropp; exact A1).
    assert (B1 : Rabs (1 - c * c) <= 1) by (apply Rabs_le; split; lra).
    assert (A3 : Rabs (rnd (1 - rnd (c1 * c1)) - (1 - c * c)) <= 17 * u). { by_rnd A2. nra. }
    set (a := rnd (1 - rnd (c1 * c1))) in *.
    assert (A4 : Rabs (rnd (r * r) - r * r) <= 17 * u). { eapply Rle_trans; [apply RW|]. rewrite (Rabs_right (r * r)) by lra. nra. }
    assert (AB : Rabs a <= 101 / 100). { replace a with ((1 - c * c) + (a - (1 - c * c))) by ring. eapply Rle_trans; [apply abs_tri; [exact B1|exact A3]|]. lra. }
    assert (A5 : Rabs (rnd (r * r) * a - r * r * (1 - c * c)) <= 290 * u).
    { replace (rnd (r * r) * a - r * r * (1 - c * c)) with ((rnd (r * r) - r * r) * a + r * r * (a - (1 - c * c))) by ring.
      eapply Rle_trans; [apply Rabs_triang|]. rewrite !Rabs_mult. rewrite <- (Rabs_mult r r), (Rabs_right (r * r)) by lra.
      assert (Rabs (rnd (r * r) - r * r) * Rabs a <= 17 * u * (101 / 100)) by (apply Rmult_le_compat; auto; apply Rabs_pos).
      assert (r * r * Rabs (a - (1 - c * c)) <= 16009 / 1000 * (17 * u)) by (apply Rmult_le_compat; try lra; apply Rabs_pos). lra. }
    assert (B2 : Rabs (r * r * (1 - c * c)) <= 16009 / 1000).
    { rewrite Rabs_mult, (Rabs_right (r * r)) by lra. pose proof (Rabs_pos (1 - c * c)). nra. }
    assert (A6 : Rabs (rnd (rnd (r * r) * a) - r * r * (1 - c * c)) <= 308 * u). { by_rnd A5. nra. }
    set (b := rnd (rnd (r * r) * a)) in *. set (T := 1 - r * r * (1 - c * c)).
    assert (A7 : Rabs (1 - b - T) <= 308 * u) by (unfold T; replace (1 - b - (1 - r * r * (1 - c * c))) with (- (b - r * r * (1 - c * c))) by ring; rewrite Rabs_Ropp; exact A6).
    assert (B3 : Rabs T <= 1701 / 100). { unfold T. apply abs_le_both in B2. apply Rabs_le. lra. }
    assert (A8 : Rabs (radicand - T) <= 330 * u). { unfold radicand. by_rnd A7. nra. }
    clear A0 A1 A2 A3 A4 A5 A6 A7 AB B1. apply abs_le_both in A8.
    assert (T1 : T <= 101 / 100). { unfold T. assert (r * r * (c * c - 1) <= 16009 / 1000 * (83 * u)). { destruct (Rle_dec 0 (c * c - 1)); nra. } lra. }
    pose proof (abs_le_both _ _ V3) as V3'. pose proof (abs_le_both _ _ N3) as N3'.
    unfold w. destruct (rltb 0 radicand) eqn:RL.
    - apply XRFacts.rltb_true in RL. rewrite Rmax_right by lra. set (y := sqrt radicand).
      assert (Y0 : 0 <= y) by apply sqrt_pos. assert (Y2 : y * y = radicand) by (apply sqrt_sqrt; lra). assert (Y1 : y <= 101 / 100) by nra.
      set (s := rnd y). assert (S1 : Rabs (s - y) <= 11 / 10 * u). { eapply Rle_trans; [apply RW|]. rewrite (Rabs_right y) by lra. nra. }
      apply abs_le_both in S1. assert (S2 : Rabs (s * s - T) <= 334 * u). { apply Rabs_le. nra. }
      assert (SB : Rabs s <= 102 / 100) by (apply Rabs_le; lra).
      set (K := r * c - s).
      assert (RC : Rabs (r * c) <= 4002 / 1000). { rewrite Rabs_mult. apply Rle_trans with (4001 / 1000 * (1 + 41 * u)); [|lra]. apply Rmult_le_compat; try apply Rabs_pos; auto. apply Rabs_le. lra. }
      assert (KB : Rabs K <= 503 / 100). { unfold K, Rminus. eapply Rle_trans; [apply abs_tri; [exact RC|rewrite Rabs_Ropp; exact SB]|]. lra. }
      assert (K0 : Rabs (r * c1 - r * c) <= 25 * u). { replace (r * c1 - r * c) with (r * (c1 - c)) by ring. rewrite Rabs_mult. apply Rle_trans with (4001 / 1000 * (6 * u)); [|lra]. apply Rmult_le_compat; try apply Rabs_pos; auto. }
      assert (K1 : Rabs (rnd (r * c1) - r * c) <= 30 * u). { by_rnd K0. nra. }
      assert (K2 : Rabs (rnd (r * c1) - s - K) <= 30 * u) by (unfold K; replace (rnd (r * c1) - s - (r * c - s)) with (rnd (r * c1) - r * c) by ring; exact K1).
      assert (K3 : Rabs (rnd (rnd (r * c1) - s) - K) <= 36 * u). { by_rnd K2. nra. }
      set (k := rnd (rnd (r * c1) - s)) in *.
      set (W := vadd (vscale r v1) (vscale K nn)).
      assert (WW : vdot W W = 1 + r * r * (vdot v1 v1 - 1) + (s * s - T) + K * K * (vdot nn nn - 1)).
      { unfold W. replace (vdot (vadd (vscale r v1) (vscale K nn)) (vadd (vscale r v1) (vscale K nn))) with (r * r * vdot v1 v1 + 2 * (r * K) * vdot v1 nn + K * K * vdot nn nn) by (unfold vdot, vadd, vscale; cbn; ring).
        replace (vdot v1 nn) with (- c) by (unfold c; ring). unfold T, K. ring. }
      assert (WB : Rabs (vdot W W - 1) <= 2100 * u).
      { rewrite WW. apply abs_le_both in S2. apply abs_le_both in KB. assert (K4 : 0 <= K * K <= 254 / 10) by nra. apply Rabs_le.
        assert (- (16009 / 1000 * (41 * u)) <= r * r * (vdot v1 v1 - 1) <= 16009 / 1000 * (41 * u)) by nra.
        assert (- (254 / 10 * (41 * u)) <= K * K * (vdot nn nn - 1) <= 254 / 10 * (41 * u)) by nra. lra. }
      assert (WN : 99 / 100 <= vnorm W <= 101 / 100). { rewrite <- vnorm_sqr in WB. apply abs_le_both in WB. pose proof (vnorm_nonneg W). nra. }
      assert (L1 : vnorm (vsub (vround rnd (vscale r v1)) (vscale r v1)) <= 5 * u).
      { eapply Rle_trans; [apply (vround_close rnd u eta U0 E0 RW)|]. rewrite vnorm_scale. assert (Rabs r * vnorm v1 <= 4001 / 1000 * (101 / 100)) by (apply Rmult_le_compat; auto; [apply Rabs_pos|apply vnorm_nonneg|lra]). nra. }
      assert (L2 : vnorm (vsub (vscale k nn) (vscale K nn)) <= 37 * u).
      { eapply Rle_trans; [apply vsub_scale|]. rewrite vsub_refl. assert (Rabs (k - K) * vnorm nn <= 36 * u * (101 / 100)) by (apply Rmult_le_compat; auto; [apply Rabs_pos|apply vnorm_nonneg|lra]). lra. }
      apply (vround_at rnd u eta U0 E0 RW) in L2. rewrite vnorm_scale in L2.
      assert (L3 : vnorm (vsub (vround rnd (vscale k nn)) (vscale K nn)) <= 44 * u).
      { eapply Rle_trans; [exact L2|]. assert (Rabs K * vnorm nn <= 503 / 100 * (101 / 100)) by (apply Rmult_le_compat; auto; [apply Rabs_pos|apply vnorm_nonneg|lra]). nra. }
      assert (L4 : vnorm (vsub (vadd (vround rnd (vscale r v1)) (vround rnd (vscale k nn))) W) <= 49 * u) by (eapply Rle_trans; [apply vsub_add|]; lra).
      apply (vround_at rnd u eta U0 E0 RW) in L4. apply norm_at in L4. nra.
    - set (W := vadd v1 (vscale (2 * c) nn)).
      assert (WW : vdot W W = 1 + (vdot v1 v1 - 1) + 4 * (c * c) * (vdot nn nn - 1)).
      { unfold W. replace (vdot (vadd v1 (vscale (2 * c) nn)) (vadd v1 (vscale (2 * c) nn))) with (vdot v1 v1 + 4 * c * vdot v1 nn + 4 * (c * c) * vdot nn nn) by (unfold vdot, vadd, vscale; cbn; ring).
        replace (vdot v1 nn) with (- c) by (unfold c; ring). ring. }
      assert (WB : Rabs (vdot W W - 1) <= 300 * u). { rewrite WW. apply Rabs_le. nra. }
      assert (WN : 99 / 100 <= vnorm W <= 101 / 100). { rewrite <- vnorm_sqr in WB. apply abs_le_both in WB. pose proof (vnorm_nonneg W). nra. }
      assert (K0 : Rabs (2 * c1 - 2 * c) <= 12 * u) by (apply Rabs_le; lra).
      assert (K1 : Rabs (rnd (2 * c1) - 2 * c) <= 15 * u). { by_rnd K0. assert (Rabs (2 * c) <= 201 / 100) by (apply Rabs_le; lra). nra. }
      assert (L2 : vnorm (vsub (vscale (rnd (2 * c1)) nn) (vscale (2 * c) nn)) <= 16 * u).
      { eapply Rle_trans; [apply vsub_scale|]. rewrite vsub_refl. assert (Rabs (rnd (2 * c1) - 2 * c) * vnorm nn <= 15 * u * (101 / 100)) by (apply Rmult_le_compat; auto; [apply Rabs_pos|apply vnorm_nonneg|lra]). lra. }
      apply (vround_at rnd u eta U0 E0 RW) in L2. rewrite vnorm_scale in L2.
      assert (L3 : vnorm (vsub (vround rnd (vscale (rnd (2 * c1)) nn)) (vscale (2 * c) nn)) <= 20 * u).
      { eapply Rle_trans; [exact L2|]. assert (Rabs (2 * c) <= 201 / 100) by (apply Rabs_le; lra). assert (Rabs (2 * c) * vnorm nn <= 201 / 100 * (101 / 100)) by (apply Rmult_le_compat; auto; [apply Rabs_pos|apply vnorm_nonneg|lra]). nra. }
      assert (L4 : vnorm (vsub (vadd v1 (vround rnd (vscale (rnd (2 * c1)) nn))) W) <= 20 * u) by (eapply Rle_trans; [apply vsub_add|]; rewrite vsub_refl; lra).
      apply (vround_at rnd u eta U0 E0 RW) in L4. apply norm_at in L4. nra.
  Qed.

  Lemma refract_unit : forall v n n1 n2 n_global d index, sizeable u eta v -> Rabs (vnorm n - 1) <= 20 * u ->
    0 < n1 -> 0 < n2 -> 0 < n_global -> n1 <= 4 * n2 -> n1 <= 4 * n_global ->
    fl_refract rnd v n n1 n2 n_global d index -> Rabs (vnorm d - 1) <= 20 * u.
  Proof.
    intros v n n1 n2 ng d index SZ HN P1 P2 P3 Q2 Q3 (v1 & cp & cn & NV & DP & DN & H & _). pose proof (normalize_unit _ _ SZ NV) as HV.
    destruct (unit_sqr v1 HV) as (V1 & V2 & _). destruct (unit_sqr n HN) as (N1 & N2 & _).
    pose proof (dot_error rnd u eta U0 E0 RW U1 _ _ _ DP) as EP. pose proof (dot_error rnd u eta U0 E0 RW U1 _ _ _ DN) as EN. rewrite vnorm_opp in EN.
    assert (VN : vnorm v1 * vnorm n <= 101 / 100) by nra.
    eapply normalize_unit; [|exact H].
    match goal with |- sizeable _ _ ?w => assert (SW : 9 / 10 <= vnorm w <= 11 / 10) end.
    { apply refracted_size; auto.
      - destruct (rltb 0 cp); auto. rewrite vnorm_opp. auto.
      - destruct (rltb 0 cp).
        + replace (- vdot v1 (vopp n)) with (vdot v1 n) by (unfold vdot, vopp, vscale; cbn; ring). nra.
        + replace (- vdot v1 n) with (vdot v1 (vopp n)) by (unfold vdot, vopp, vscale; cbn; ring). nra.
      - assert (D4 : 0 <= n1 / (if rltb 0 cp then ng else n2) <= 4).
        { destruct (rltb 0 cp); (split; [apply Rmult_le_pos; [lra|left; apply Rinv_0_lt_compat; lra]|]).
          - apply (Rmult_le_reg_r ng); auto. unfold Rdiv. rewrite Rmult_assoc, Rinv_l by lra. lra.
          - apply (Rmult_le_reg_r n2); auto. unfold Rdiv. rewrite Rmult_assoc, Rinv_l by lra. lra. }
        pose proof (RW (n1 / (if rltb 0 cp then ng else n2))) as RR. rewrite (Rabs_right (n1 / _)) in RR by lra. apply abs_le_both in RR. apply Rabs_le. nra. }
    unfold sizeable. rewrite <- vnorm_sqr. revert SW. match goal with |- context [vnorm ?w] => generalize (vnorm w) end. intros k SW.
    assert (KK : 81 / 100 <= k * k) by (clear - SW; nra). split; [lra|]. assert (u * (81 / 100) <= u * (k * k)) by (apply Rmult_le_compat_l; lra). lra.
  Qed.

  (** ** Any number of interactions *)
  Theorem journey_unit : forall g d, journey rnd u eta g d -> 512 * (INR g + 1) * u <= / 2 -> Rabs (vnorm d - 1) <= 512 * (INR g + 1) * u.
  Proof.
    induction 1 as [d D|g v raw n d J IH SZ N F|g v raw n n1 n2 ng d index J IH SZ N P1 P2 P3 Q2 Q3 F]; intro B.
    - simpl. lra.
    - rewrite S_INR in *. assert (B' : 512 * (INR g + 1) * u <= / 2) by lra. specialize (IH B'). apply abs_le_both in IH.
      pose proof (reflect_drift v n d ltac:(lra) (normal_unit raw n SZ N) F) as D. apply abs_le_both in D. apply Rabs_le. lra.
    - rewrite S_INR in *. assert (B' : 512 * (INR g + 1) * u <= / 2) by lra. specialize (IH B'). apply abs_le_both in IH.
      assert (SV : sizeable u eta v). { unfold sizeable. rewrite <- vnorm_sqr. assert (KK : / 4 <= vnorm v * vnorm v) by nra. split; [lra|]. assert (u * / 4 <= u * (vnorm v * vnorm v)) by (apply Rmult_le_compat_l; lra). lra. }
      pose proof (refract_unit v n n1 n2 ng d index SV (normal_unit raw n SZ N) P1 P2 P3 Q2 Q3 F) as D. pose proof (pos_INR g). apply abs_le_both in D. apply Rabs_le. nra.
  Qed.
  Theorem journey_alive : forall g d s, journey rnd u eta g d -> 512 * (INR g + 1) * u <= / 2 -> fl_norm rnd d s -> isclose s 0 = false.
  Proof.
    intros g d s J B F. pose proof (journey_unit g d J B) as D. apply abs_le_both in D.
    assert (SV : sizeable u eta d). { unfold sizeable. rewrite <- vnorm_sqr. assert (KK : / 4 <= vnorm d * vnorm d) by nra. split; [lra|]. assert (u * / 4 <= u * (vnorm d * vnorm d)) by (apply Rmult_le_compat_l; lra). lra. }
    pose proof (norm_error d s SV F) as E. apply abs_le_both in E. assert (S0 : / 4 <= s) by nra.
    unfold isclose, atol, rtol. apply XRFacts.rleb_false. rewrite Rminus_0_r, Rabs_R0, (Rabs_right s) by lra. lra.
  Qed.
  Theorem journey_tilt : forall g d t, journey rnd u eta g d -> 512 * (INR g + 1) * u <= / 2 -> fl_normalize rnd d t -> Rabs (vnorm t - 1) <= 20 * u.
  Proof.
    intros g d t J B F. pose proof (journey_unit g d J B) as D. apply abs_le_both in D. apply (normalize_unit d t); auto.
    unfold sizeable. rewrite <- vnorm_sqr. assert (KK : / 4 <= vnorm d * vnorm d) by nra. split; [lra|]. assert (u * / 4 <= u * (vnorm d * vnorm d)) by (apply Rmult_le_compat_l; lra). lra.
  Qed.
End Unit.
