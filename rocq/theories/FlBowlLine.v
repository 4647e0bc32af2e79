(** * FlBowlLine: rays along the axis of a paraboloid, with rounding *)
From Coq Require Import Reals List Bool ZArith Permutation Lra Lia Psatz.
Import ListNotations.
From Verif Require Import XR XRFacts Lin LinFacts Fl SpecFl FlFacts FlProps FlHits SpecFlHits FlHitsFacts FlHitsRoot FlHitsProps FlHitsOn FlHitsBowl FlStep SpecFlStep FlStepProps FlBowl SpecFlBowl FlBowlProps.
Open Scope R_scope.

Section Line.
  Variable rnd : R -> R.
  Variables lo u eta : R.
  Hypothesis CL : clear lo u eta.
  Hypothesis UP : 0 < u.
  Hypothesis RW : rounds_within u eta rnd.
  Let U0 : 0 <= u. Proof. lra. Qed.
  Let U1 : u <= / 1000000. Proof. destruct CL as (_ & (_ & H) & _). exact H. Qed.
  Let E0 : 0 <= eta. Proof. destruct CL as (_ & _ & (H & _)). exact H. Qed.
  Let E4 : eta <= u * lo ^ 4. Proof. destruct CL as (_ & _ & (_ & H)). exact H. Qed.
  Let L0 : 0 < lo. Proof. destruct CL as ((H & _) & _). exact H. Qed.
  Let L9 : lo <= / 1000000000. Proof. destruct CL as ((_ & H) & _). exact H. Qed.

  (** Numbers whose [T]-fold is of the size [W] *)
  Section Scale.
    Variables T W : R.
    Hypothesis T0 : 0 <= T.
    Hypothesis W0 : 0 <= W.
    Hypothesis ET : eta * T <= / 1000000 * (u * W).
    Lemma sc_rnd : forall x y j k K, T * Rabs x <= k * W -> T * Rabs (x - y) <= j * (u * W) -> k + j + / 1000 <= K -> T * Rabs (rnd x - y) <= K * (u * W).
    Proof.
      intros x y j k K X Y L. pose proof (RW x) as H. assert (UW : 0 <= u * W) by (apply Rmult_le_pos; auto).
      assert (A : T * Rabs (rnd x - x) <= T * (u * Rabs x + eta)) by (apply Rmult_le_compat_l; auto).
      assert (B : u * (T * Rabs x) <= u * (k * W)) by (apply Rmult_le_compat_l; auto).
      assert (C : Rabs (rnd x - y) <= Rabs (rnd x - x) + Rabs (x - y)) by (replace (rnd x - y) with ((rnd x - x) + (x - y)) by ring; apply Rabs_triang).
      assert (D : T * Rabs (rnd x - y) <= T * (Rabs (rnd x - x) + Rabs (x - y))) by (apply Rmult_le_compat_l; auto).
      assert ((k + j + / 1000) * (u * W) <= K * (u * W)) by (apply Rmult_le_compat_r; auto). lra.
    Qed.
    Lemma sc_size : forall x y j k K, T * Rabs y <= k * W -> T * Rabs (x - y) <= j * (u * W) -> 0 <= j <= 100 -> k + / 1000 <= K -> T * Rabs x <= K * W.
    Proof.
      intros x y j k K Y X J L. assert (UW : u * W <= / 1000000 * W) by (apply Rmult_le_compat_r; auto). assert (UW0 : 0 <= u * W) by (apply Rmult_le_pos; auto).
      assert (C : Rabs x <= Rabs (x - y) + Rabs y) by (replace x with ((x - y) + y) at 1 by ring; apply Rabs_triang).
      assert (D : T * Rabs x <= T * (Rabs (x - y) + Rabs y)) by (apply Rmult_le_compat_l; auto).
      assert (j * (u * W) <= 100 * (u * W)) by (apply Rmult_le_compat_r; lra). assert ((k + / 1000) * W <= K * W) by (apply Rmult_le_compat_r; auto). lra.
    Qed.
    Lemma sc_sum : forall x y a b, T * Rabs x <= a -> T * Rabs y <= b -> T * Rabs (x + y) <= a + b /\ T * Rabs (x - y) <= a + b.
    Proof.
      intros x y a b X Y. pose proof (Rabs_triang x y) as A. pose proof (Rabs_triang x (- y)) as B. rewrite Rabs_Ropp in B.
      assert (T * Rabs (x + y) <= T * (Rabs x + Rabs y)) by (apply Rmult_le_compat_l; auto). assert (T * Rabs (x + - y) <= T * (Rabs x + Rabs y)) by (apply Rmult_le_compat_l; auto).
      unfold Rminus. lra.
    Qed.
    Lemma sc_dot : forall l q, rdot rnd l q -> (length l <= 3)%nat -> T * asum l <= 2.01 * W -> T * Rabs (q - rsum l) <= 8.1 * (u * W) /\ T * Rabs q <= 2.02 * W.
    Proof.
      intros l q H L A. pose proof (rdot3 rnd u eta U0 E0 RW U1 _ _ H L) as B. assert (UW : 0 <= u * W) by (apply Rmult_le_pos; auto).
      assert (C : T * Rabs (q - rsum l) <= T * (4 * u * asum l + 6 * eta)) by (apply Rmult_le_compat_l; auto).
      assert (D : u * (T * asum l) <= u * (2.01 * W)) by (apply Rmult_le_compat_l; auto).
      assert (F : T * Rabs (q - rsum l) <= 8.1 * (u * W)) by lra. split; auto.
      apply (sc_size q (rsum l) 8.1 2.01); auto; try lra. eapply Rle_trans; [|exact A]. apply Rmult_le_compat_l; auto. apply rsum_abs.
    Qed.
  End Scale.

  Section Coefs.
    Variables (f S T q cc : R) (o' d' : v4).
    Hypothesis T0 : 0 <= T.
    Hypothesis FL : lo <= f.
    Hypothesis FS : f <= S.
    Hypothesis OX : Rabs (vx o') <= 1.002 * S.
    Hypothesis OY : Rabs (vy o') <= 1.002 * S.
    Hypothesis OZ : Rabs (vz o') <= 1.002 * S.
    Hypothesis DX : T * Rabs (vx d') <= 1.002 * S.
    Hypothesis DY : T * Rabs (vy d') <= 1.002 * S.
    Hypothesis DZ : T * Rabs (vz d') <= 1.002 * S.
    Hypothesis ET : eta * T <= / 1000000 * (u * (S * S)).
    Hypothesis H2 : rdot rnd (pairs2 o' d') q.
    Hypothesis H3 : rdot rnd (pairs2 o' o') cc.
    Let B := 2 * (vx o' * vx d' + vy o' * vy d' - 2 * f * vz d').
    Let C := from_bowl f o'.
    Let b := rnd (rnd (2 * q) - rnd (rnd (4 * f) * vz d')).
    Let c := rnd (cc - rnd (rnd (4 * f) * vz o')).
    Lemma line_coefs : T * Rabs (b - B) <= 40 * (u * (S * S)) /\ T * Rabs b <= 8.4 * (S * S) /\ Rabs (c - C) <= 28 * (u * (S * S)) /\ Rabs c <= 6.3 * (S * S).
    Proof.
      assert (S0 : 0 < S) by lra. set (W := S * S) in *. assert (W0 : 0 <= W) by (unfold W; nra). assert (UW : 0 <= u * W) by (apply Rmult_le_pos; auto).
      pose proof (lo4 lo u eta CL) as (K1 & K2 & K3 & K4 & K5).
      assert (LW : lo * lo <= W) by (unfold W; apply Rmult_le_compat; lra).
      assert (E1 : eta * 1 <= / 1000000 * (u * W)). { rewrite Rmult_1_r. eapply Rle_trans; [exact E4|]. assert (u * lo ^ 4 <= u * (/ 1000000 * W)) by (apply Rmult_le_compat_l; lra). lra. }
      assert (P : forall x y, Rabs x <= 1.002 * S -> T * Rabs y <= 1.002 * S -> T * Rabs (x * y) <= 1.005 * W).
      { intros x y X Y. rewrite Rabs_mult. replace (T * (Rabs x * Rabs y)) with (Rabs x * (T * Rabs y)) by ring.
        apply Rle_trans with (1.002 * S * (1.002 * S)); [apply Rmult_le_compat; auto using Rabs_pos; apply Rmult_le_pos; auto using Rabs_pos|unfold W in *; nra]. }
      assert (P1 : forall x y, Rabs x <= 1.002 * S -> Rabs y <= 1.002 * S -> 1 * Rabs (x * y) <= 1.005 * W).
      { intros x y X Y. rewrite Rmult_1_l, Rabs_mult. apply Rle_trans with (1.002 * S * (1.002 * S)); [apply Rmult_le_compat; auto using Rabs_pos|unfold W in *; nra]. }
      (* the products *)
      destruct (sc_dot T W T0 W0 ET (pairs2 o' d') q H2) as (Q1 & Q2); [cbn; lia| |].
      { unfold pairs2. cbn. pose proof (P _ _ OX DX). pose proof (P _ _ OY DY). lra. }
      destruct (sc_dot 1 W Rle_0_1 W0 E1 (pairs2 o' o') cc H3) as (R1 & R2); [cbn; lia| |].
      { unfold pairs2. cbn. pose proof (P1 _ _ OX OX). pose proof (P1 _ _ OY OY). lra. }
      assert (RQ : rsum (pairs2 o' d') = vx o' * vx d' + vy o' * vy d') by (cbn; ring). rewrite RQ in Q1.
      assert (RR : rsum (pairs2 o' o') = from_axis o') by (unfold from_axis; cbn; ring). rewrite RR in R1.
      (* 4 f *)
      assert (Uf : 0 <= u * f) by (apply Rmult_le_pos; lra).
      assert (Ef : eta <= u * f). { apply (eta_below lo u eta CL). assert (lo * lo <= 1 * lo) by (apply Rmult_le_compat_r; lra). lra. }
      assert (F4f : Rabs (rnd (4 * f) - 4 * f) <= 5 * u * f) by (apply (rnd_by rnd u eta U0 RW _ 4); auto; try lra; rewrite Rabs_right; lra).
      assert (B4f : Rabs (rnd (4 * f)) <= 4.001 * f) by (apply (near_size u U0 U1 _ (4 * f) 5 4); auto; try lra; rewrite Rabs_right; lra).
      set (g := rnd (4 * f)) in *.
      assert (G : forall T' z, 0 <= T' -> eta * T' <= / 1000000 * (u * W) -> T' * Rabs z <= 1.002 * S -> T' * Rabs (rnd (g * z) - 4 * f * z) <= 9.1 * (u * W) /\ T' * Rabs (rnd (g * z)) <= 4.1 * W /\ T' * Rabs (4 * f * z) <= 4.05 * W).
      { intros T' z T1 ET' Z. assert (ZP : 0 <= T' * Rabs z) by (apply Rmult_le_pos; auto using Rabs_pos).
        assert (A1 : T' * Rabs (g * z - 4 * f * z) <= 5.02 * (u * W)).
        { replace (g * z - 4 * f * z) with ((g - 4 * f) * z) by ring. rewrite Rabs_mult. replace (T' * (Rabs (g - 4 * f) * Rabs z)) with (Rabs (g - 4 * f) * (T' * Rabs z)) by ring.
          apply Rle_trans with (5 * u * f * (1.002 * S)); [apply Rmult_le_compat; auto using Rabs_pos|]. assert (u * (f * S) <= u * W) by (apply Rmult_le_compat_l; [lra|unfold W; apply Rmult_le_compat_r; lra]). lra. }
        assert (A2 : T' * Rabs (4 * f * z) <= 4.05 * W).
        { rewrite Rabs_mult, (Rabs_right (4 * f)) by lra. replace (T' * (4 * f * Rabs z)) with (4 * f * (T' * Rabs z)) by ring.
          apply Rle_trans with (4 * S * (1.002 * S)); [apply Rmult_le_compat; lra|unfold W; nra]. }
        assert (A3 : T' * Rabs (g * z) <= 4.06 * W) by (apply (sc_size T' W T1 W0 (g * z) (4 * f * z) 5.02 4.05); auto; lra).
        assert (A4 : T' * Rabs (rnd (g * z) - 4 * f * z) <= 9.1 * (u * W)) by (apply (sc_rnd T' W T1 W0 ET' _ _ 5.02 4.06); auto; lra).
        split; [exact A4|]. split; [|exact A2]. apply (sc_size T' W T1 W0 _ (4 * f * z) 9.1 4.05); auto; lra. }
      destruct (G T (vz d') T0 ET DZ) as (G1 & G2 & G3). destruct (G 1 (vz o') Rle_0_1 E1) as (G4 & G5 & G6); [rewrite Rmult_1_l; auto|].
      (* b *)
      assert (Two : forall x, T * Rabs (2 * x) = 2 * (T * Rabs x)) by (intro x; rewrite Rabs_mult, (Rabs_right 2) by lra; ring).
      assert (B1 : T * Rabs (rnd (2 * q) - 2 * (vx o' * vx d' + vy o' * vy d')) <= 20.4 * (u * W)).
      { apply (sc_rnd T W T0 W0 ET _ _ 16.2 4.04); try lra; [rewrite Two; lra|].
        replace (2 * q - 2 * (vx o' * vx d' + vy o' * vy d')) with (2 * (q - (vx o' * vx d' + vy o' * vy d'))) by ring. rewrite Two. lra. }
      assert (B2 : T * Rabs (rnd (2 * q)) <= 4.1 * W).
      { apply (sc_size T W T0 W0 _ (2 * (vx o' * vx d' + vy o' * vy d')) 20.4 4.02); auto; try lra. rewrite Two. pose proof (P _ _ OX DX). pose proof (P _ _ OY DY).
        destruct (sc_sum T T0 (vx o' * vx d') (vy o' * vy d') (1.005 * W) (1.005 * W)) as (X & _); auto. lra. }
      assert (B3 : T * Rabs (b - B) <= 40 * (u * W)).
      { destruct (sc_sum T T0 _ _ _ _ B2 G2) as (_ & X1).
        apply (sc_rnd T W T0 W0 ET _ _ 29.5 8.2); try lra. unfold B.
        replace (rnd (2 * q) - rnd (g * vz d') - 2 * (vx o' * vx d' + vy o' * vy d' - 2 * f * vz d')) with ((rnd (2 * q) - 2 * (vx o' * vx d' + vy o' * vy d')) - (rnd (g * vz d') - 4 * f * vz d')) by ring.
        destruct (sc_sum T T0 _ _ _ _ B1 G1) as (_ & X2). lra. }
      assert (B4 : T * Rabs b <= 8.4 * W).
      { apply (sc_size T W T0 W0 b B 40 8.1); auto; try lra. unfold B. replace (2 * (vx o' * vx d' + vy o' * vy d' - 2 * f * vz d')) with (2 * (vx o' * vx d' + vy o' * vy d') - 4 * f * vz d') by ring.
        pose proof (P _ _ OX DX). pose proof (P _ _ OY DY). destruct (sc_sum T T0 (vx o' * vx d') (vy o' * vy d') (1.005 * W) (1.005 * W)) as (X & _); auto.
        assert (X2 : T * Rabs (2 * (vx o' * vx d' + vy o' * vy d')) <= 4.02 * W) by (rewrite Two; lra). destruct (sc_sum T T0 _ _ _ _ X2 G3) as (_ & X3). lra. }
      (* c *)
      assert (C1 : 1 * Rabs (c - C) <= 28 * (u * W)).
      { destruct (sc_sum 1 Rle_0_1 _ _ _ _ R2 G5) as (_ & X1). apply (sc_rnd 1 W Rle_0_1 W0 E1 _ _ 17.2 6.2); try lra. unfold C, from_bowl.
        replace (cc - rnd (g * vz o') - (from_axis o' - 4 * f * vz o')) with ((cc - from_axis o') - (rnd (g * vz o') - 4 * f * vz o')) by ring.
        destruct (sc_sum 1 Rle_0_1 _ _ _ _ R1 G4) as (_ & X2). lra. }
      assert (C2 : 1 * Rabs c <= 6.3 * W).
      { apply (sc_size 1 W Rle_0_1 W0 c C 28 6.1); auto; try lra. unfold C, from_bowl, from_axis. pose proof (P1 _ _ OX OX). pose proof (P1 _ _ OY OY).
        destruct (sc_sum 1 Rle_0_1 (vx o' * vx o') (vy o' * vy o') (1.005 * W) (1.005 * W)) as (X & _); auto. destruct (sc_sum 1 Rle_0_1 _ _ _ _ X G6) as (_ & X3). lra. }
      rewrite Rmult_1_l in C1, C2. auto.
    Qed.
  End Coefs.

  (** One coordinate of the direction, seen from the object, times the distance *)
  Lemma row_times : forall r o d t y S, rdot rnd (pairs r d) y -> terms r o d t <= S -> Rabs t * Rabs y <= 1.0001 * S + 8 * (eta * Rabs t).
  Proof.
    intros r o d t y S Y T. pose proof (rdot4 rnd u eta U0 E0 RW U1 _ _ _ Y) as EY. pose proof (asum_nonneg (pairs r d)) as A2. pose proof (Rabs_pos t) as T0.
    assert (A : Rabs t * asum (pairs r d) <= S).
    { eapply Rle_trans; [|exact T]. unfold terms, pairs, coords. cbn. rewrite !Rabs_mult.
      assert (H : forall a b, 0 <= Rabs a * Rabs b) by (intros; apply Rmult_le_pos; apply Rabs_pos).
      pose proof (H (vx r) (vx o)). pose proof (H (vy r) (vy o)). pose proof (H (vz r) (vz o)). pose proof (H (vw r) (vw o)). lra. }
    assert (V1 : Rabs (vdot r d) <= asum (pairs r d)) by (rewrite <- rsum_pairs; apply rsum_abs).
    assert (Y1 : Rabs y <= asum (pairs r d) + (5 * u * asum (pairs r d) + 8 * eta)) by (replace y with (vdot r d + (y - vdot r d)) by ring; apply abs_tri; auto).
    assert (Y2 : Rabs t * Rabs y <= Rabs t * (asum (pairs r d) + (5 * u * asum (pairs r d) + 8 * eta))) by (apply Rmult_le_compat_l; auto).
    assert (0 <= Rabs t * asum (pairs r d)) by (apply Rmult_le_pos; auto).
    assert (u * (Rabs t * asum (pairs r d)) <= / 1000000 * (Rabs t * asum (pairs r d))) by (apply Rmult_le_compat_r; auto). lra.
  Qed.
  Lemma isclose_apart : forall b, isclose b 0 = false -> rnd (b + 0) <> 0 /\ Rabs (rnd (b + 0) - b) <= u * Rabs b + eta /\ Rabs (rnd (b + 0)) <= 2 * Rabs b /\ 0 < b * rnd (b + 0).
  Proof.
    intros b NB. apply isclose0_false in NB. unfold atol in NB. rewrite Rplus_0_r. pose proof (RW b) as H. pose proof (lo4 lo u eta CL) as (K1 & K2 & K3 & K4 & K5).
    assert (B0 : b <> 0) by (intros ->; rewrite Rabs_R0 in NB; lra).
    assert (E3 : 3 * eta <= Rabs b).
    { assert (LL : lo ^ 4 <= / 1000000 * / 1000000) by nra. assert (u * lo ^ 4 <= / 1000000 * lo ^ 4) by (apply Rmult_le_compat_r; lra). lra. }
    destruct (rnd_keeps rnd lo u eta CL RW b E3 B0) as (S1 & S2 & S3). split; [intros Z; rewrite Z in S1; lra|]. repeat (split; [lra|]). exact S1.
  Qed.

  Theorem bowl_line_on : forall m f o d o' d' t S, fl_image rnd m o o' -> fl_image rnd m d d' -> fl_bowl_line rnd f o' d' t ->
    reach m o d t S -> lo <= f <= S -> entries_below m (/ lo) -> from_axis d' <= / lo * / lo -> lo <= Rabs (vz d') <= / lo ->
    Rabs (from_bowl f (mapply m (fl_move rnd o d t))) <= 256 * u * (S * S) + from_axis d' * (t * t).
  Proof.
    intros m f o d o' d' t S IO ID (a & q & cc & b & c & H1 & H2 & H3 & CA & Hb & Hc & NB & Ht) RE (FL & FS) EB D2 (DZ1 & DZ2).
    assert (LS : lo <= S) by lra. assert (S0 : 0 < S) by lra. pose proof (lo4 lo u eta CL) as (K1 & K2 & K3 & K4 & K5). pose proof (inv_lo lo u eta CL) as (I1 & I2 & I3 & I4).
    pose proof IO as (X1 & X2 & X3 & _). pose proof ID as (Y1 & Y2 & Y3 & _). pose proof RE as (T1 & T2 & T3).
    pose proof (origin_small rnd lo u eta CL RW _ _ _ _ _ _ X1 T1 LS) as OX. pose proof (origin_small rnd lo u eta CL RW _ _ _ _ _ _ X2 T2 LS) as OY. pose proof (origin_small rnd lo u eta CL RW _ _ _ _ _ _ X3 T3 LS) as OZ.
    pose proof (row_times _ _ _ _ _ _ Y1 T1) as RX. pose proof (row_times _ _ _ _ _ _ Y2 T2) as RY. pose proof (row_times _ _ _ _ _ _ Y3 T3) as RZ.
    pose proof (Rabs_pos t) as TP.
    (* the distance *)
    assert (E8 : 8 * eta <= / 1000 * lo). { assert (A : u * lo ^ 4 <= / 1000000 * lo ^ 4) by (apply Rmult_le_compat_r; lra). nra. }
    assert (TL : Rabs t * lo <= 1.01 * S).
    { assert (A : Rabs t * lo <= Rabs t * Rabs (vz d')) by (apply Rmult_le_compat_l; auto).
      assert (B : Rabs t * (8 * eta) <= Rabs t * (/ 1000 * lo)) by (apply Rmult_le_compat_l; auto). assert (0 <= Rabs t * lo) by (apply Rmult_le_pos; lra). lra. }
    assert (ETS : eta * Rabs t <= / 1000000 * (u * (S * S))).
    { apply Rle_trans with (u * lo ^ 4 * Rabs t); [apply Rmult_le_compat_r; auto|].
      replace (u * lo ^ 4 * Rabs t) with (u * (lo * lo * (lo * (Rabs t * lo)))) by ring.
      assert (A : lo * (Rabs t * lo) <= S * (1.01 * S)) by (apply Rmult_le_compat; try lra; apply Rmult_le_pos; lra).
      assert (A0 : 0 <= lo * (Rabs t * lo)) by (repeat apply Rmult_le_pos; lra).
      assert (B : lo * lo * (lo * (Rabs t * lo)) <= / 1000000 * (S * S)).
      { apply Rle_trans with (/ 1000000 * lo * (S * (1.01 * S))); [apply Rmult_le_compat; try lra; apply Rmult_le_pos; lra|]. assert (0 < S * S) by (apply Rmult_lt_0_compat; lra). replace (/ 1000000 * lo * (S * (1.01 * S))) with (1.01 * / 1000000 * (lo * (S * S))) by ring. assert (lo * (S * S) <= / 1000 * (S * S)) by (apply Rmult_le_compat_r; lra). lra. }
      replace (/ 1000000 * (u * (S * S))) with (u * (/ 1000000 * (S * S))) by ring. apply Rmult_le_compat_l; auto. }
    assert (ET1 : eta * Rabs t <= / 2 * (u * S)).
    { apply Rle_trans with (u * lo ^ 4 * Rabs t); [apply Rmult_le_compat_r; auto|]. replace (u * lo ^ 4 * Rabs t) with (u * (lo * lo * lo * (Rabs t * lo))) by ring.
      assert (B : lo * lo * lo * (Rabs t * lo) <= / 4 * (1.01 * S)) by (assert (0 <= Rabs t * lo) by (apply Rmult_le_pos; lra); assert (0 <= lo * lo * lo) by (repeat apply Rmult_le_pos; lra); assert (lo * lo * lo <= / 4) by nra; apply Rmult_le_compat; lra).
      replace (/ 2 * (u * S)) with (u * (/ 2 * S)) by ring. apply Rmult_le_compat_l; auto. lra. }
    assert (ET : eta * (1 + Rabs t) <= u * S).
    { assert (A : eta <= u * (/ 2 * S)) by (apply (eta_below lo u eta CL); lra). lra. }
    assert (SU : u * S <= / 1000000 * S) by (apply Rmult_le_compat_r; lra).
    (* the coefficients *)
    destruct (line_coefs f S (Rabs t) q cc o' d' TP FL FS) as (B1 & B2 & C1 & C2); auto; try lra. cbv zeta in *. rewrite <- Hb, <- Hc in *.
    assert (DS : forall x, x * x <= / lo * / lo -> Rabs x <= / lo).
    { intros x X. apply le_of_sqr; [lra|]. rewrite <- Rabs_mult. rewrite Rabs_right; [exact X|]. pose proof (Rle_0_sqr x). unfold Rsqr in *. lra. }
    pose proof (Rle_0_sqr (vx d')) as QX. pose proof (Rle_0_sqr (vy d')) as QY. unfold Rsqr in QX, QY. unfold from_axis in D2.
    assert (DX' : Rabs (vx d') <= / lo) by (apply DS; lra). assert (DY' : Rabs (vy d') <= / lo) by (apply DS; lra).
    assert (LL : forall x, Rabs x <= / lo -> lo * lo * Rabs x <= 1.002 * S).
    { intros x X. apply Rle_trans with (lo * lo * / lo); [apply Rmult_le_compat_l; nra|]. replace (lo * lo * / lo) with lo by (field; lra). lra. }
    assert (LL0 : 0 <= lo * lo) by nra.
    assert (ELL : eta * (lo * lo) <= / 1000000 * (u * (S * S))).
    { assert (A : eta <= u * (S * S)) by (apply (eta_below lo u eta CL); apply Rmult_le_compat; lra). assert (eta * (lo * lo) <= eta * / 1000000) by (apply Rmult_le_compat_l; nra). lra. }
    destruct (line_coefs f S (lo * lo) q cc o' d') as (_ & B3 & _ & _); auto; try lra.
    cbv zeta in *. rewrite <- Hb in B3.
    (* the division *)
    destruct (isclose_apart b NB) as (N0 & N1 & N2 & _). set (rb := rnd (b + 0)) in *.
    set (W := S * S) in *. assert (W0 : 0 < W) by (unfold W; nra). assert (UW : 0 < u * W) by (apply Rmult_lt_0_compat; auto).
    assert (Q : Rabs (t * rb + c) <= 6.4 * (u * W)).
    { pose proof (RW (- c / rb)) as H. rewrite <- Ht in H.
      replace (t * rb + c) with ((t - - c / rb) * rb) by (field; auto). rewrite Rabs_mult.
      apply Rle_trans with ((u * Rabs (- c / rb) + eta) * Rabs rb); [apply Rmult_le_compat_r; auto using Rabs_pos|].
      replace ((u * Rabs (- c / rb) + eta) * Rabs rb) with (u * Rabs (- c / rb * rb) + eta * Rabs rb) by (rewrite Rabs_mult; ring).
      replace (- c / rb * rb) with (- c) by (field; auto). rewrite Rabs_Ropp.
      assert (A : eta * Rabs rb <= u * (lo * lo * (lo * lo)) * (2 * Rabs b)). { replace (lo * lo * (lo * lo)) with (lo ^ 4) by ring. apply Rmult_le_compat; auto using Rabs_pos. }
      replace (u * (lo * lo * (lo * lo)) * (2 * Rabs b)) with (2 * u * (lo * lo) * (lo * lo * Rabs b)) in A by ring.
      assert (A2 : 2 * u * (lo * lo) * (lo * lo * Rabs b) <= 2 * u * / 1000000 * (8.4 * W)).
      { assert (Z : lo * lo <= / 1000000) by nra. apply Rmult_le_compat; auto; [apply Rmult_le_pos; nra|apply Rmult_le_pos; [nra|apply Rabs_pos]|]. apply Rmult_le_compat_l; lra. }
      assert (A3 : u * Rabs c <= u * (6.3 * W)) by (apply Rmult_le_compat_l; auto). lra. }
    assert (Q2 : Rabs (t * (b - rb)) <= 8.5 * (u * W)).
    { rewrite Rabs_mult. rewrite (Rabs_minus_sym b rb). apply Rle_trans with (Rabs t * (u * Rabs b + eta)); [apply Rmult_le_compat_l; auto|].
      assert (u * (Rabs t * Rabs b) <= u * (8.4 * W)) by (apply Rmult_le_compat_l; auto). lra. }
    set (B := 2 * (vx o' * vx d' + vy o' * vy d' - 2 * f * vz d')) in *. set (C := from_bowl f o') in *.
    assert (Q3 : Rabs (t * (B - b)) <= 40 * (u * W)) by (rewrite Rabs_mult, (Rabs_minus_sym B b); auto).
    assert (Q4 : Rabs (C - c) <= 28 * (u * W)) by (rewrite Rabs_minus_sym; auto).
    assert (Q5 : Rabs (t * B + C) <= 84 * (u * W)).
    { replace (t * B + C) with ((t * (B - b) + t * (b - rb)) + ((t * rb + c) + (C - c))) by ring.
      eapply Rle_trans; [apply abs_tri; apply abs_tri; eassumption|]. lra. }
    (* the point *)
    destruct (three rnd lo u eta CL RW m o d o' d' t S IO ID RE LS EB ET) as ((P1 & P2) & (P3 & P4) & (P5 & P6)). cbv zeta in *.
    set (p := mapply m (fl_move rnd o d t)) in *. set (w := vadd o' (vscale t d')) in *.
    pose proof (sqr_close lo u eta CL _ _ S S0 P1 P2) as Z1. pose proof (sqr_close lo u eta CL _ _ S S0 P3 P4) as Z2.
    assert (Z3 : Rabs (4 * f * (vz p - vz w)) <= 4 * S * (17 * u * S)) by (apply abs_mul_le; auto; rewrite Rabs_right; lra).
    assert (FW : from_bowl f w = (t * B + C) + from_axis d' * (t * t)) by (unfold B, C, w, from_bowl, from_axis; cbn; ring).
    assert (FA : Rabs (from_axis d' * (t * t)) <= from_axis d' * (t * t)) by (rewrite Rabs_right; [apply Rle_refl|]; unfold from_axis; apply Rle_ge; apply Rmult_le_pos; nra).
    replace (from_bowl f p) with ((((vx p * vx p - vx w * vx w) + (vy p * vy p - vy w * vy w)) + - (4 * f * (vz p - vz w))) + from_bowl f w) by (unfold from_bowl, from_axis; ring).
    rewrite FW. eapply Rle_trans; [apply abs_tri; [apply abs_tri; [apply abs_tri; eassumption|rewrite Rabs_Ropp; exact Z3]|apply abs_tri; [exact Q5|exact FA]]|]. unfold W in *. lra.
  Qed.
End Line.
