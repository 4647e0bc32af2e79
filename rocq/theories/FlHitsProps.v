(** * FlHitsProps: rounded hits lie on the surface *)
From Coq Require Import Reals List Bool ZArith Permutation Lra Lia Psatz.
Import ListNotations.
From Verif Require Import XR XRFacts Lin Fl SpecFl FlFacts FlProps FlHits SpecFlHits FlHitsFacts FlHitsRoot.
Open Scope R_scope.

(** The first three, and the first two, entries *)
Definition cut3 (v : v4) : v4 := V4 (vx v) (vy v) (vz v) 0.
Definition cut2 (v : v4) : v4 := V4 (vx v) (vy v) 0 0.
Lemma sum3 : forall v w, rsum (pairs3 v w) = vdot (cut3 v) (cut3 w) /\ asum (pairs3 v w) <= vnorm (cut3 v) * vnorm (cut3 w) /\ asum (pairs3 v v) = vdot (cut3 v) (cut3 v) /\ length (pairs3 v w) = 3%nat.
Proof.
  intros v w. split; [unfold vdot; cbn; ring|]. split; [|split; [|reflexivity]].
  - eapply Rle_trans; [|apply asum_pairs]. unfold pairs, coords. cbn. rewrite Rmult_0_l, Rabs_R0. lra.
  - unfold vdot; cbn. rewrite !Rabs_right by (apply Rle_ge, Rle_0_sqr). ring.
Qed.
Lemma sum2 : forall v w, rsum (pairs2 v w) = vdot (cut2 v) (cut2 w) /\ asum (pairs2 v w) <= vnorm (cut2 v) * vnorm (cut2 w) /\ asum (pairs2 v v) = vdot (cut2 v) (cut2 v) /\ length (pairs2 v w) = 2%nat.
Proof.
  intros v w. split; [unfold vdot; cbn; ring|]. split; [|split; [|reflexivity]].
  - eapply Rle_trans; [|apply asum_pairs]. unfold pairs, coords. cbn. rewrite Rmult_0_l, Rabs_R0. lra.
  - unfold vdot; cbn. rewrite !Rabs_right by (apply Rle_ge, Rle_0_sqr). ring.
Qed.

Section Hits.
  Variable rnd : R -> R.
  Variables lo u eta : R.
  Hypothesis CL : clear lo u eta.
  Hypothesis RW : rounds_within u eta rnd.
  Let U0 : 0 <= u. Proof. destruct CL as (_ & (H & _) & _). exact H. Qed.
  Let U1 : u <= / 1000000. Proof. destruct CL as (_ & (_ & H) & _). exact H. Qed.
  Let E0 : 0 <= eta. Proof. destruct CL as (_ & _ & (H & _)). exact H. Qed.
  Let E4 : eta <= u * lo ^ 4. Proof. destruct CL as (_ & _ & (_ & H)). exact H. Qed.
  Let L0 : 0 < lo. Proof. destruct CL as ((H & _) & _). exact H. Qed.
  Let L1 : lo <= / 1000000. Proof. destruct CL as ((_ & H) & _). lra. Qed.

  Lemma lo4 : lo ^ 4 <= lo * lo /\ lo ^ 4 <= / 1000000 * (lo * lo * lo) /\ lo * lo <= / 1000000 * lo /\ lo * lo * lo <= / 1000000 * (lo * lo) /\ 0 < lo ^ 4.
  Proof.
    assert (A : lo * lo <= / 1000000 * lo) by (apply Rmult_le_compat_r; lra). assert (P : 0 < lo * lo) by nra.
    assert (B : lo * lo * lo <= / 1000000 * (lo * lo)) by nra. assert (P3 : 0 < lo * lo * lo) by nra.
    assert (C : lo ^ 4 <= / 1000000 * (lo * lo * lo)) by (simpl; nra). repeat split; auto; try lra. apply pow_lt; auto.
  Qed.

  (** *** Seen from the object *)
  Lemma row_close : forall r o d t x y S, rdot rnd (pairs r o) x -> rdot rnd (pairs r d) y -> terms r o d t <= S -> lo <= S ->
    Rabs (vx r) <= / lo -> Rabs (vy r) <= / lo -> Rabs (vz r) <= / lo -> Rabs (vw r) <= / lo -> eta * (1 + Rabs t) <= u * S ->
    Rabs (vdot r (fl_move rnd o d t) - (x + t * y)) <= 17 * u * S /\ Rabs x <= 1.001 * S /\ Rabs (x + t * y) <= 1.001 * S.
  Proof.
    intros r o d t x y S X Y T LS Rx Ry Rz Rw ET. pose proof (rdot4 rnd u eta U0 E0 RW U1 _ _ _ X) as EX. pose proof (rdot4 rnd u eta U0 E0 RW U1 _ _ _ Y) as EY.
    pose proof lo4 as (K1 & K2 & K3 & K4 & K5). assert (S0 : 0 < S) by lra.
    assert (T1 : asum (pairs r o) + Rabs t * asum (pairs r d) = terms r o d t). { unfold terms, pairs, coords. cbn. rewrite !Rabs_mult. ring. }
    pose proof (asum_nonneg (pairs r o)) as A1. pose proof (asum_nonneg (pairs r d)) as A2. pose proof (Rabs_pos t) as A3.
    assert (A4 : 0 <= Rabs t * asum (pairs r d)) by (apply Rmult_le_pos; auto).
    assert (V1 : Rabs (vdot r o) <= asum (pairs r o)) by (rewrite <- rsum_pairs; apply rsum_abs).
    assert (V2 : Rabs (vdot r d) <= asum (pairs r d)) by (rewrite <- rsum_pairs; apply rsum_abs).
    assert (EXS : Rabs (x - vdot r o) <= 5 * u * asum (pairs r o) + 8 * eta) by auto.
    assert (EYS : Rabs (t * (y - vdot r d)) <= Rabs t * (5 * u * asum (pairs r d) + 8 * eta)) by (apply abs_mul_le; [lra|auto]).
    assert (Q : Rabs (x + t * y - (vdot r o + t * vdot r d)) <= 13 * u * S).
    { replace (x + t * y - (vdot r o + t * vdot r d)) with ((x - vdot r o) + t * (y - vdot r d)) by ring. eapply Rle_trans; [apply abs_tri; eassumption|].
      apply Rle_trans with (5 * (u * (asum (pairs r o) + Rabs t * asum (pairs r d))) + 8 * (eta * (1 + Rabs t))); [apply Req_le; ring|]. rewrite T1.
      assert (u * terms r o d t <= u * S) by (apply Rmult_le_compat_l; auto). lra. }
    assert (US : 0 <= u * S) by nra. assert (US2 : u * S <= / 1000000 * S) by (apply Rmult_le_compat_r; lra).
    assert (Et : eta <= u * S). { assert (0 <= eta * Rabs t) by (apply Rmult_le_pos; auto). lra. }
    split; [|split].
    2:{ replace x with ((x - vdot r o) + vdot r o) by ring. eapply Rle_trans; [apply abs_tri; eassumption|]. assert (u * asum (pairs r o) <= u * S) by (apply Rmult_le_compat_l; lra). lra. }
    2:{ replace (x + t * y) with ((x + t * y - (vdot r o + t * vdot r d)) + (vdot r o + t * vdot r d)) by ring. eapply Rle_trans; [apply abs_tri; [exact Q|apply abs_tri; [exact V1|apply abs_mul_le; [apply Rle_refl|exact V2]]]|]. rewrite T1. lra. }
    assert (Pj : forall a b, Rabs (rnd (a + rnd (t * b)) - (a + t * b)) <= 2.1 * u * (Rabs a + Rabs (t * b)) + 2.1 * eta).
    { intros a b. pose proof (RW (t * b)) as H1. pose proof (RW (a + rnd (t * b))) as H2. pose proof (Rabs_pos (t * b)) as P1. pose proof (Rabs_pos a) as P2.
      assert (B1 : Rabs (rnd (t * b)) <= 1.001 * Rabs (t * b) + eta).
      { replace (rnd (t * b)) with ((rnd (t * b) - t * b) + t * b) by ring. eapply Rle_trans; [apply abs_tri; [exact H1|apply Rle_refl]|].
        assert (u * Rabs (t * b) <= / 1000000 * Rabs (t * b)) by (apply Rmult_le_compat_r; lra). lra. }
      assert (B2 : Rabs (a + rnd (t * b)) <= Rabs a + (1.001 * Rabs (t * b) + eta)) by (apply abs_tri; [lra|auto]).
      replace (rnd (a + rnd (t * b)) - (a + t * b)) with ((rnd (a + rnd (t * b)) - (a + rnd (t * b))) + (rnd (t * b) - t * b)) by ring.
      eapply Rle_trans; [apply abs_tri; eassumption|].
      assert (u * Rabs (a + rnd (t * b)) <= u * (Rabs a + (1.001 * Rabs (t * b) + eta))) by (apply Rmult_le_compat_l; auto).
      assert (u * eta <= / 1000000 * eta) by (apply Rmult_le_compat_r; lra). assert (0 <= u * Rabs a) by (apply Rmult_le_pos; auto). assert (0 <= u * Rabs (t * b)) by (apply Rmult_le_pos; auto). lra. }
    assert (M4 : forall k a b, Rabs k <= / lo -> Rabs (k * (rnd (a + rnd (t * b)) - (a + t * b))) <= 2.1 * u * (Rabs k * (Rabs a + Rabs (t * b))) + 0.1 * (u * S)).
    { intros k a b Kk. eapply Rle_trans; [apply abs_mul_le; [apply Rle_refl|apply Pj]|].
      assert (EK : Rabs k * (2.1 * eta) <= 0.1 * (u * S)).
      { apply Rle_trans with (/ lo * (2.1 * eta)); [apply Rmult_le_compat_r; lra|]. apply (Rmult_le_reg_l lo); auto. replace (lo * (/ lo * (2.1 * eta))) with (2.1 * eta) by (field; lra).
        apply Rle_trans with (2.1 * (u * (/ 1000000 * (lo * lo)))); [apply Rmult_le_compat_l; [lra|]; eapply Rle_trans; [exact E4|]; apply Rmult_le_compat_l; nra|].
        assert (lo * (u * lo) <= lo * (u * S)) by (apply Rmult_le_compat_l; [lra|]; apply Rmult_le_compat_l; auto). nra. }
      assert (D : Rabs k * (2.1 * u * (Rabs a + Rabs (t * b)) + 2.1 * eta) = 2.1 * u * (Rabs k * (Rabs a + Rabs (t * b))) + Rabs k * (2.1 * eta)) by ring. lra. }
    assert (P : Rabs (vdot r (fl_move rnd o d t) - (vdot r o + t * vdot r d)) <= 2.5 * u * S).
    { replace (vdot r (fl_move rnd o d t) - (vdot r o + t * vdot r d)) with
        (((vx r * (rnd (vx o + rnd (t * vx d)) - (vx o + t * vx d)) + vy r * (rnd (vy o + rnd (t * vy d)) - (vy o + t * vy d))) +
          vz r * (rnd (vz o + rnd (t * vz d)) - (vz o + t * vz d))) + vw r * (rnd (vw o + rnd (t * vw d)) - (vw o + t * vw d))).
      2:{ unfold vdot, fl_move, vround, vadd, vscale. cbn. ring. }
      eapply Rle_trans; [apply abs_tri; [apply abs_tri; [apply abs_tri|]|]; apply M4; assumption|].
      assert (UT : u * terms r o d t <= u * S) by (apply Rmult_le_compat_l; auto). unfold terms in UT. lra. }
    replace (vdot r (fl_move rnd o d t) - (x + t * y)) with ((vdot r (fl_move rnd o d t) - (vdot r o + t * vdot r d)) + - (x + t * y - (vdot r o + t * vdot r d))) by ring.
    eapply Rle_trans; [apply abs_tri; [exact P|rewrite Rabs_Ropp; exact Q]|]. lra.
  Qed.
  Lemma sqr_close : forall x y S, 0 < S -> Rabs (y - x) <= 17 * u * S -> Rabs x <= 1.001 * S -> Rabs (y * y - x * x) <= 35 * u * (S * S).
  Proof.
    intros x y S S0 H X. replace (y * y - x * x) with ((y - x) * (y - x + 2 * x)) by ring.
    assert (B : Rabs (y - x + 2 * x) <= 2.01 * S). { eapply Rle_trans; [apply abs_tri; [exact H|rewrite Rabs_mult, (Rabs_right 2) by lra; apply Rmult_le_compat_l; [lra|exact X]]|]. assert (u * S <= / 1000000 * S) by (apply Rmult_le_compat_r; lra). lra. }
    eapply Rle_trans; [apply abs_mul_le; [exact H|exact B]|]. assert (0 <= u * (S * S)) by (apply Rmult_le_pos; nra). lra.
  Qed.

  (** *** The coefficients *)
  Lemma coef_a : forall l D a, rdot rnd l a -> rsum l = D -> asum l = D -> (length l <= 3)%nat -> eta <= u * D -> Rabs (a - D) <= 32 * u * D.
  Proof. intros l D a H R A L E. pose proof (rdot3 rnd u eta U0 E0 RW U1 _ _ H L) as B. rewrite R, A in B. pose proof (asum_nonneg l) as P. rewrite A in P. assert (0 <= u * D) by (apply Rmult_le_pos; auto). lra. Qed.
  Lemma coef_q : forall l D m q, rdot rnd l q -> rsum l = D -> asum l <= m -> (length l <= 3)%nat -> eta <= u * m -> Rabs (q - D) <= 10 * u * m.
  Proof. intros l D m q H R A L E. pose proof (rdot3 rnd u eta U0 E0 RW U1 _ _ H L) as B. rewrite R in B. assert (u * asum l <= u * m) by (apply Rmult_le_compat_l; auto). lra. Qed.
  Lemma coef_den : forall a D, 0 <= D -> eta <= u * D -> Rabs (a - D) <= 32 * u * D -> Rabs (rnd (2 * a) - 2 * a) <= 32 * u * D /\ Rabs (rnd (rnd (2 * a) + 0) - 2 * a) <= 32 * u * D.
  Proof.
    intros a D D0 E A. assert (BA : Rabs a <= 1.001 * D) by (apply (near_size u U0 U1 a D 32 1); auto; try lra; rewrite Rabs_right; lra).
    assert (B2 : Rabs (2 * a) <= 2.002 * D) by (rewrite Rabs_mult, (Rabs_right 2) by lra; lra).
    assert (R1 : Rabs (rnd (2 * a) - 2 * a) <= 3.1 * u * D) by (apply (rnd_by rnd u eta U0 RW _ 2.002); auto; lra).
    assert (R2 : Rabs (rnd (2 * a) + 0) <= 2.01 * D) by (rewrite Rplus_0_r; apply (near_size u U0 U1 _ (2 * a) 3.1 2.002); auto; lra).
    assert (UD : 0 <= u * D) by (apply Rmult_le_pos; auto). split; [lra|]. apply (rnd_near rnd u eta U0 RW _ (2 * a) 3.1 2.01); auto; try lra. rewrite Rplus_0_r. auto.
  Qed.
  Lemma coef_b : forall q D m, 0 <= m -> eta <= u * m -> Rabs D <= m -> Rabs (q - D) <= 10 * u * m -> Rabs (rnd (2 * q) - 2 * D) <= 24 * u * m.
  Proof.
    intros q D m M E HD H. assert (BQ : Rabs q <= 1.001 * m) by (apply (near_size u U0 U1 q D 10 1); auto; lra).
    apply (rnd_near rnd u eta U0 RW _ (2 * D) 20 2.002); auto; try lra; [rewrite Rabs_mult, (Rabs_right 2) by lra; lra|].
    replace (2 * q - 2 * D) with (2 * (q - D)) by ring. rewrite Rabs_mult, (Rabs_right 2) by lra. lra.
  Qed.
  Lemma coef_c : forall cc C r m, 0 <= m -> eta <= u * m -> 0 <= C <= m -> Rabs (cc - C) <= 10 * u * m -> r * r <= m -> Rabs (rnd (cc - rnd (r * r)) - (C - r * r)) <= 32 * u * m.
  Proof.
    intros cc C r m M E HC H HR. pose proof (Rle_0_sqr r) as R0. unfold Rsqr in R0.
    assert (BC : Rabs cc <= 1.001 * m) by (apply (near_size u U0 U1 cc C 10 1); auto; try lra; rewrite Rabs_right; lra).
    assert (RR : Rabs (rnd (r * r) - r * r) <= 2 * u * m) by (apply (rnd_by rnd u eta U0 RW _ 1); auto; try lra; rewrite Rabs_right; lra).
    assert (BR : Rabs (rnd (r * r)) <= 1.001 * m) by (apply (near_size u U0 U1 _ (r * r) 2 1); auto; try lra; rewrite Rabs_right; lra).
    apply (rnd_near rnd u eta U0 RW _ (C - r * r) 12 2.01); auto; try lra.
    - unfold Rminus. eapply Rle_trans; [apply abs_tri; [exact BC|rewrite Rabs_Ropp; exact BR]|]. lra.
    - replace (cc - rnd (r * r) - (C - r * r)) with ((cc - C) + - (rnd (r * r) - r * r)) by ring. eapply Rle_trans; [apply abs_tri; [exact H|rewrite Rabs_Ropp; exact RR]|]. lra.
  Qed.

  (** underflow is far from all of these *)
  Lemma far : forall s M, lo * lo <= s * s -> 0 < s -> s <= / lo -> lo <= M -> eta <= u * (s * s) /\ eta <= u * (s * M) /\ eta <= u * (M * M) /\ eta <= u * ((s * M) * (s * M)) /\ eta <= u * (M / s).
  Proof.
    intros s M A S0 SL ML. pose proof lo4 as (K1 & K2 & K3 & K4 & K5). assert (LS : lo <= s) by nra. assert (LM : lo * lo <= s * M) by nra.
    assert (F : forall x, lo * lo <= x -> eta <= u * x). { intros x H. eapply Rle_trans; [exact E4|]. apply Rmult_le_compat_l; auto. lra. }
    assert (LP : 0 < lo * lo) by nra.
    split; [apply F; auto|]. split; [apply F; auto|]. split; [apply F; nra|]. split.
    - eapply Rle_trans; [exact E4|]. apply Rmult_le_compat_l; auto. replace (lo ^ 4) with ((lo * lo) * (lo * lo)) by ring. apply Rmult_le_compat; lra.
    - apply F. apply (Rmult_le_reg_r s); auto. replace (M / s * s) with M by (field; lra). apply Rle_trans with (lo * lo * / lo); [apply Rmult_le_compat_l; lra|]. replace (lo * lo * / lo) with lo by (field; lra). auto.
  Qed.
  Lemma far_t : forall s S t k, lo <= s -> lo <= S -> 0 <= k <= 100 -> Rabs t <= k * (S / s) -> eta * (1 + Rabs t) <= u * S.
  Proof.
    intros s S t k LS LSS K T. pose proof lo4 as (K1 & K2 & K3 & K4 & K5). assert (S0 : 0 < s) by lra. assert (P : 0 < S / s) by (apply Rdiv_lt_0_compat; lra).
    assert (Q : S / s <= S * / lo). { unfold Rdiv. apply Rmult_le_compat_l; [lra|]. apply Rinv_le_contravar; auto. }
    assert (T2 : Rabs t <= 100 * (S * / lo)). { eapply Rle_trans; [exact T|]. apply Rmult_le_compat; lra. }
    assert (A : eta * Rabs t <= u * lo ^ 4 * (100 * (S * / lo))) by (apply Rmult_le_compat; auto using Rabs_pos).
    replace (u * lo ^ 4 * (100 * (S * / lo))) with ((u * S) * (100 * (lo * lo * lo))) in A by (field; lra).
    assert (US : 0 <= u * S) by nra. assert (X : 100 * (lo * lo * lo) <= / 2) by nra. assert (A2 : (u * S) * (100 * (lo * lo * lo)) <= (u * S) * / 2) by (apply Rmult_le_compat_l; auto).
    assert (B : eta <= u * S * / 2). { eapply Rle_trans; [exact E4|]. rewrite Rmult_assoc. apply Rmult_le_compat_l; auto. nra. }
    lra.
  Qed.
  Lemma small_norm : forall v S, 0 <= S -> Rabs (vx v) <= 1.001 * S -> Rabs (vy v) <= 1.001 * S -> Rabs (vz v) <= 1.001 * S -> vnorm (cut3 v) <= 2 * S /\ vnorm (cut2 v) <= 2 * S.
  Proof.
    intros v S S0 X Y Z. assert (Q : forall x, Rabs x <= 1.001 * S -> x * x <= 1.003 * (S * S)).
    { intros x H. assert (Rabs (x * x) <= 1.001 * S * (1.001 * S)) by (apply abs_mul_le; auto). pose proof (Rle_abs (x * x)). assert (0 <= S * S) by nra. nra. }
    apply Q in X, Y, Z. assert (SS : 0 <= S * S) by nra. pose proof (Rle_0_sqr (vz v)) as P. unfold Rsqr in P.
    split; apply le_of_sqr; try lra; rewrite vnorm_sqr; unfold vdot; cbn; nra.
  Qed.

  (** *** A round surface: [l1], [l2], [l3] are the sums of products for a, b and c *)
  Lemma round_hit : forall l1 l2 l3 D O a q cc r den t M, rdot rnd l1 a -> rdot rnd l2 q -> rdot rnd l3 cc ->
    rsum l1 = vdot D D -> asum l1 = vdot D D -> rsum l2 = vdot D O -> asum l2 <= vnorm D * vnorm O -> rsum l3 = vdot O O -> asum l3 = vdot O O ->
    (length l1 <= 3)%nat -> (length l2 <= 3)%nat -> (length l3 <= 3)%nat ->
    lo * lo <= vdot D D -> vnorm D <= / lo -> vnorm O <= M -> 0 <= r <= M -> lo <= M ->
    den = rnd (2 * a) \/ den = rnd (rnd (2 * a) + 0) -> one_root rnd a (rnd (2 * q)) (rnd (cc - rnd (r * r))) den t ->
    Rabs (vdot D D * (t * t) + 2 * vdot D O * t + (vdot O O - r * r)) <= 1280 * u * (M * M) /\ Rabs t <= 3 * (M / vnorm D).
  Proof.
    intros l1 l2 l3 D O a q cc r den t M H1 H2 H3 R1 A1 R2 A2 R3 A3 N1 N2 N3 LD UD LO LR LM HD F.
    pose proof (vnorm_sqr D) as SD. pose proof (vnorm_sqr O) as SO. pose proof (vnorm_nonneg D) as PD. pose proof (vnorm_nonneg O) as PO.
    rewrite <- SD in LD. assert (S0 : 0 < vnorm D) by nra. destruct (far (vnorm D) M LD S0 UD LM) as (F1 & F2 & F3 & F4 & F5).
    assert (M0 : 0 < M) by lra. assert (DM : vnorm D * vnorm O <= vnorm D * M) by (apply Rmult_le_compat_l; auto).
    assert (BO : vdot O O <= M * M) by (rewrite <- SO; apply Rmult_le_compat; auto).
    assert (BR : r * r <= M * M) by (apply Rmult_le_compat; lra). assert (PM : 0 <= vnorm D * M) by nra. assert (PMM : 0 <= M * M) by nra.
    assert (BD : Rabs (vdot D O) <= vnorm D * M) by (rewrite <- R2; eapply Rle_trans; [apply rsum_abs|]; lra).
    assert (Ca : Rabs (a - vnorm D * vnorm D) <= 32 * u * (vnorm D * vnorm D)) by (apply (coef_a l1); auto; rewrite SD; auto).
    assert (Cq : Rabs (q - vdot D O) <= 10 * u * (vnorm D * M)) by (apply (coef_q l2); auto; lra).
    assert (Cc : Rabs (cc - vdot O O) <= 10 * u * (M * M)) by (apply (coef_q l3); auto; lra).
    pose proof (coef_b q _ _ PM F2 BD Cq) as Cb. assert (O0 : 0 <= vdot O O) by (rewrite <- SO; nra).
    pose proof (coef_c cc _ r _ PMM F3 (conj O0 BO) Cc BR) as Ccc. destruct (coef_den a (vnorm D * vnorm D)) as (D1 & D2); auto; try nra.
    rewrite <- SD. apply (root_residual rnd u eta U0 E0 RW U1 (vnorm D) M (2 * vdot D O) (vdot O O - r * r) a (rnd (2 * q)) (rnd (cc - rnd (r * r))) den t); auto.
    - rewrite Rabs_mult, (Rabs_right 2) by lra. lra.
    - apply Rabs_le. pose proof (Rle_0_sqr r) as R0. unfold Rsqr in R0. lra.
    - eapply Rle_trans; [exact Cb|]. assert (0 <= u * (vnorm D * M)) by (apply Rmult_le_pos; auto). lra.
    - destruct HD as [-> | ->]; auto.
  Qed.
End Hits.
