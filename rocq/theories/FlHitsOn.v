(** * FlHitsOn: rounded hits of spheres, cylinders, paraboloids and planes *)
From Coq Require Import Reals List Bool ZArith Permutation Lra Lia Psatz.
Import ListNotations.
From Verif Require Import XR XRFacts Lin Fl SpecFl FlFacts FlProps FlHits SpecFlHits FlHitsFacts FlHitsRoot FlHitsProps.
Open Scope R_scope.

Section On.
  Variable rnd : R -> R.
  Variables lo u eta : R.
  Hypothesis CL : clear lo u eta.
  Hypothesis RW : rounds_within u eta rnd.
  Let U0 : 0 <= u. Proof. destruct CL as (_ & (H & _) & _). exact H. Qed.
  Let U1 : u <= / 1000000. Proof. destruct CL as (_ & (_ & H) & _). exact H. Qed.
  Let E0 : 0 <= eta. Proof. destruct CL as (_ & _ & (H & _)). exact H. Qed.
  Let E4 : eta <= u * lo ^ 4. Proof. destruct CL as (_ & _ & (_ & H)). exact H. Qed.
  Let L0 : 0 < lo. Proof. destruct CL as ((H & _) & _). exact H. Qed.
  Let L9 : lo <= / 1000000000. Proof. destruct CL as ((_ & H) & _). exact H. Qed.

  Lemma eta_below : forall x, lo * lo <= x -> eta <= u * x.
  Proof. intros x H. pose proof (lo4 lo u eta CL) as (K1 & _). eapply Rle_trans; [exact E4|]. apply Rmult_le_compat_l; auto. lra. Qed.
  Lemma lo_sqr : lo * lo <= / 1000000000 * lo /\ 0 < lo * lo.
  Proof. split; [apply Rmult_le_compat_r; lra|nra]. Qed.
  (** the origin, seen from the object *)
  Lemma origin_small : forall r o d t x S, rdot rnd (pairs r o) x -> terms r o d t <= S -> lo <= S -> Rabs x <= 1.001 * S.
  Proof.
    intros r o d t x S X T LS. pose proof (rdot4 rnd u eta U0 E0 RW U1 _ _ _ X) as EX. pose proof (asum_nonneg (pairs r o)) as A1. pose proof lo_sqr as (Q1 & Q2).
    assert (A : asum (pairs r o) <= S).
    { eapply Rle_trans; [|exact T]. unfold terms, pairs, coords. cbn. rewrite !Rabs_mult.
      assert (H : forall a b, 0 <= Rabs a * (Rabs t * Rabs b)) by (intros; apply Rmult_le_pos; [apply Rabs_pos|apply Rmult_le_pos; apply Rabs_pos]).
      pose proof (H (vx r) (vx d)). pose proof (H (vy r) (vy d)). pose proof (H (vz r) (vz d)). pose proof (H (vw r) (vw d)). lra. }
    assert (V1 : Rabs (vdot r o) <= asum (pairs r o)) by (rewrite <- rsum_pairs; apply rsum_abs).
    replace x with ((x - vdot r o) + vdot r o) by ring. eapply Rle_trans; [apply abs_tri; eassumption|].
    assert (Es : eta <= u * S) by (apply eta_below; lra). assert (u * asum (pairs r o) <= u * S) by (apply Rmult_le_compat_l; auto).
    assert (u * S <= / 1000000 * S) by (apply Rmult_le_compat_r; lra). lra.
  Qed.
  Lemma far_reach : forall S t, lo <= S -> Rabs t <= 100 * (S * (/ lo * / lo * / lo)) -> eta * (1 + Rabs t) <= u * S.
  Proof.
    intros S t LS T. pose proof lo_sqr as (Q1 & Q2). assert (A : eta * Rabs t <= u * lo ^ 4 * (100 * (S * (/ lo * / lo * / lo)))) by (apply Rmult_le_compat; auto using Rabs_pos).
    replace (u * lo ^ 4 * (100 * (S * (/ lo * / lo * / lo)))) with (u * S * (100 * lo)) in A by (field; lra).
    assert (US : 0 <= u * S) by nra. assert (A2 : (u * S) * (100 * lo) <= (u * S) * / 2) by (apply Rmult_le_compat_l; lra).
    assert (B : eta <= u * (S * / 2)) by (apply eta_below; lra). lra.
  Qed.
  Lemma inv_lo : 1000000000 <= / lo /\ 1000000000 * / lo <= / lo * / lo /\ 1000000000 * (/ lo * / lo) <= / lo * / lo * / lo /\ 0 < / lo * / lo.
  Proof.
    assert (A : 1000000000 <= / lo). { replace 1000000000 with (/ / 1000000000) by field. apply Rinv_le_contravar; lra. }
    assert (B : 1000000000 * / lo <= / lo * / lo) by (apply Rmult_le_compat_r; lra). assert (0 < / lo * / lo) by nra.
    repeat split; auto. rewrite (Rmult_assoc (/ lo)). rewrite (Rmult_comm (/ lo) (/ lo * / lo)), (Rmult_comm 1000000000). apply Rmult_le_compat_l; lra.
  Qed.
  Lemma over_small : forall S s k, lo <= s -> 0 <= S -> 0 <= k <= 100 -> k * (S / s) <= 100 * (S * (/ lo * / lo * / lo)).
  Proof.
    intros S s k LS S0 K. pose proof inv_lo as (I1 & I2 & I3 & I4). assert (I : / s <= / lo) by (apply Rinv_le_contravar; auto).
    assert (P : 0 < / s) by (apply Rinv_0_lt_compat; lra). unfold Rdiv. apply Rmult_le_compat; try lra; [apply Rmult_le_pos; lra|]. apply Rmult_le_compat_l; lra.
  Qed.

  Lemma sphere_one : forall r o d t, either (fl_sphere_hits rnd r o d) t -> exists a q cc, rdot rnd (pairs3 d d) a /\ rdot rnd (pairs3 d o) q /\ rdot rnd (pairs3 o o) cc /\
    one_root rnd a (rnd (2 * q)) (rnd (cc - rnd (r * r))) (rnd (2 * a)) t.
  Proof. intros r o d t (t' & [(a & b & c & (q & cc & H1 & H2 & H3 & -> & ->) & F) | (a & b & c & (q & cc & H1 & H2 & H3 & -> & ->) & F)]); exists a, q, cc; repeat (split; auto); apply either_root in F; apply F. Qed.
  Lemma side_one : forall r o d t, either (fl_side_hits rnd r o d) t -> exists a q cc, rdot rnd (pairs2 d d) a /\ rdot rnd (pairs2 d o) q /\ rdot rnd (pairs2 o o) cc /\ isclose a 0 = false /\
    one_root rnd a (rnd (2 * q)) (rnd (cc - rnd (r * r))) (rnd (rnd (2 * a) + 0)) t.
  Proof. intros r o d t (t' & [(a & b & c & (q & cc & H1 & H2 & H3 & H4 & -> & ->) & F) | (a & b & c & (q & cc & H1 & H2 & H3 & H4 & -> & ->) & F)]); exists a, q, cc; repeat (split; auto); apply either_root in F; apply F. Qed.
  (** *** All three coordinates of the point *)
  Lemma three : forall m o d o' d' t S, fl_image rnd m o o' -> fl_image rnd m d d' -> reach m o d t S -> lo <= S -> entries_below m (/ lo) -> eta * (1 + Rabs t) <= u * S ->
    let p := mapply m (fl_move rnd o d t) in let q := vadd o' (vscale t d') in
    (Rabs (vx p - vx q) <= 17 * u * S /\ Rabs (vx q) <= 1.001 * S) /\ (Rabs (vy p - vy q) <= 17 * u * S /\ Rabs (vy q) <= 1.001 * S) /\ (Rabs (vz p - vz q) <= 17 * u * S /\ Rabs (vz q) <= 1.001 * S).
  Proof.
    intros m o d o' d' t S (X1 & X2 & X3 & _) (Y1 & Y2 & Y3 & _) (T1 & T2 & T3) LS EB ET. cbn zeta.
    destruct (EB (row0 m)) as (A1 & A2 & A3 & A4); auto. destruct (EB (row1 m)) as (B1 & B2 & B3 & B4); auto. destruct (EB (row2 m)) as (C1 & C2 & C3 & C4); auto.
    pose proof (row_close rnd lo u eta CL RW _ _ _ t _ _ S X1 Y1 T1 LS A1 A2 A3 A4 ET) as (P1 & _ & Q1).
    pose proof (row_close rnd lo u eta CL RW _ _ _ t _ _ S X2 Y2 T2 LS B1 B2 B3 B4 ET) as (P2 & _ & Q2).
    pose proof (row_close rnd lo u eta CL RW _ _ _ t _ _ S X3 Y3 T3 LS C1 C2 C3 C4 ET) as (P3 & _ & Q3). cbn. auto.
  Qed.
  Lemma o_norm : forall m o d o' t S, fl_image rnd m o o' -> reach m o d t S -> lo <= S -> vnorm (cut3 o') <= 2 * S /\ vnorm (cut2 o') <= 2 * S /\ Rabs (vz o') <= 1.001 * S.
  Proof.
    intros m o d o' t S (X1 & X2 & X3 & _) (T1 & T2 & T3) LS.
    pose proof (origin_small _ _ _ _ _ _ X1 T1 LS) as A. pose proof (origin_small _ _ _ _ _ _ X2 T2 LS) as B. pose proof (origin_small _ _ _ _ _ _ X3 T3 LS) as C.
    destruct (small_norm o' S) as (N3 & N2); auto. lra.
  Qed.

  (** *** Spheres *)
  Theorem sphere_on : forall m r o d o' d' t S, fl_image rnd m o o' -> fl_image rnd m d d' -> either (fl_sphere_hits rnd r o' d') t ->
    reach m o d t S -> 0 <= r <= S -> lo <= S -> entries_below m (/ lo) -> lo * lo <= from_centre d' <= / lo * / lo ->
    Rabs (from_centre (mapply m (fl_move rnd o d t)) - r * r) <= 8192 * u * (S * S).
  Proof.
    intros m r o d o' d' t S IO ID EI RE R LS EB (D1 & D2).
    destruct (sphere_one _ _ _ _ EI) as (a & q & cc & H1 & H2 & H3 & F).
    destruct (sum3 d' d') as (R1 & _ & A1 & N1). destruct (sum3 d' o') as (R2 & A2 & _ & N2). destruct (sum3 o' o') as (R3 & _ & A3 & N3).
    destruct (o_norm m o d o' t S IO RE LS) as (NO & _ & _). assert (DD : vdot (cut3 d') (cut3 d') = from_centre d') by (unfold vdot, from_centre; cbn; ring).
    pose proof (vnorm_sqr (cut3 d')) as SD. pose proof (vnorm_nonneg (cut3 d')) as PD. pose proof inv_lo as (I1 & I2 & I3 & I4).
    assert (ND : vnorm (cut3 d') <= / lo) by (apply le_of_sqr; [lra|rewrite SD, DD; auto]).
    destruct (round_hit rnd lo u eta CL RW (pairs3 d' d') (pairs3 d' o') (pairs3 o' o') (cut3 d') (cut3 o') a q cc r (rnd (2 * a)) t (2 * S)) as (Q & T); auto; try lra; try (rewrite ?N1, ?N2, ?N3; lia).
    assert (LD : lo <= vnorm (cut3 d')) by nra.
    assert (ET : eta * (1 + Rabs t) <= u * S).
    { apply far_reach; auto. eapply Rle_trans; [exact T|]. eapply Rle_trans; [|apply (over_small S (vnorm (cut3 d')) 6); lra]. apply Req_le. field. lra. }
    destruct (three m o d o' d' t S IO ID RE LS EB ET) as ((X1 & X2) & (Y1 & Y2) & (Z1 & Z2)). cbn zeta in *.
    set (p := mapply m (fl_move rnd o d t)) in *. set (w := vadd o' (vscale t d')) in *. assert (S0 : 0 < S) by lra.
    pose proof (sqr_close lo u eta CL _ _ S S0 X1 X2) as E1. pose proof (sqr_close lo u eta CL _ _ S S0 Y1 Y2) as E2. pose proof (sqr_close lo u eta CL _ _ S S0 Z1 Z2) as E3.
    assert (W : from_centre w - r * r = vdot (cut3 d') (cut3 d') * (t * t) + 2 * vdot (cut3 d') (cut3 o') * t + (vdot (cut3 o') (cut3 o') - r * r)).
    { unfold w, from_centre, vdot. cbn. ring. }
    rewrite <- W in Q. replace (from_centre p - r * r) with ((((vx p * vx p - vx w * vx w) + (vy p * vy p - vy w * vy w)) + (vz p * vz p - vz w * vz w)) + (from_centre w - r * r)) by (unfold from_centre; ring).
    eapply Rle_trans; [apply abs_tri; [apply abs_tri; [apply abs_tri; eassumption|eassumption]|exact Q]|]. assert (0 <= u * (S * S)) by (apply Rmult_le_pos; nra). lra.
  Qed.

  (** *** The sides of cylinders *)
  Lemma not_close : forall l D a, rdot rnd l a -> rsum l = D -> asum l = D -> (length l <= 3)%nat -> isclose a 0 = false -> lo * lo <= D.
  Proof.
    intros l D a H R A L C. pose proof (rdot3 rnd u eta U0 E0 RW U1 _ _ H L) as B. rewrite R, A in B. pose proof (asum_nonneg l) as P. rewrite A in P. apply isclose0_false in C. unfold atol in C.
    pose proof lo_sqr as (Q1 & Q2). assert (X : Rabs a <= D + (4 * u * D + 6 * eta)). { replace a with (D + (a - D)) by ring. apply abs_tri; [rewrite Rabs_right; lra|auto]. }
    assert (u * D <= / 1000000 * D) by (apply Rmult_le_compat_r; lra). assert (Es : eta <= u * (lo * lo)) by (apply eta_below; lra).
    assert (u * (lo * lo) <= / 1000000 * (lo * lo)) by (apply Rmult_le_compat_r; lra). lra.
  Qed.
  Theorem side_on : forall m r o d o' d' t S, fl_image rnd m o o' -> fl_image rnd m d d' -> either (fl_side_hits rnd r o' d') t ->
    reach m o d t S -> 0 <= r <= S -> lo <= S -> entries_below m (/ lo) -> from_axis d' <= / lo * / lo ->
    Rabs (from_axis (mapply m (fl_move rnd o d t)) - r * r) <= 8192 * u * (S * S).
  Proof.
    intros m r o d o' d' t S IO ID EI RE R LS EB D2.
    destruct (side_one _ _ _ _ EI) as (a & q & cc & H1 & H2 & H3 & NC & F).
    destruct (sum2 d' d') as (R1 & _ & A1 & N1). destruct (sum2 d' o') as (R2 & A2 & _ & N2). destruct (sum2 o' o') as (R3 & _ & A3 & N3).
    destruct (o_norm m o d o' t S IO RE LS) as (_ & NO & _). assert (DD : vdot (cut2 d') (cut2 d') = from_axis d') by (unfold vdot, from_axis; cbn; ring).
    pose proof (vnorm_sqr (cut2 d')) as SD. pose proof (vnorm_nonneg (cut2 d')) as PD. pose proof inv_lo as (I1 & I2 & I3 & I4).
    assert (ND : vnorm (cut2 d') <= / lo) by (apply le_of_sqr; [lra|rewrite SD, DD; auto]).
    assert (D1 : lo * lo <= vdot (cut2 d') (cut2 d')) by (apply (not_close _ _ a H1); auto; rewrite N1; lia).
    destruct (round_hit rnd lo u eta CL RW (pairs2 d' d') (pairs2 d' o') (pairs2 o' o') (cut2 d') (cut2 o') a q cc r (rnd (rnd (2 * a) + 0)) t (2 * S)) as (Q & T); auto; try lra; try (rewrite ?N1, ?N2, ?N3; lia).
    assert (LD : lo <= vnorm (cut2 d')) by nra.
    assert (ET : eta * (1 + Rabs t) <= u * S).
    { apply far_reach; auto. eapply Rle_trans; [exact T|]. eapply Rle_trans; [|apply (over_small S (vnorm (cut2 d')) 6); lra]. apply Req_le. field. lra. }
    destruct (three m o d o' d' t S IO ID RE LS EB ET) as ((X1 & X2) & (Y1 & Y2) & _). cbn zeta in *.
    set (p := mapply m (fl_move rnd o d t)) in *. set (w := vadd o' (vscale t d')) in *. assert (S0 : 0 < S) by lra.
    pose proof (sqr_close lo u eta CL _ _ S S0 X1 X2) as E1. pose proof (sqr_close lo u eta CL _ _ S S0 Y1 Y2) as E2.
    assert (W : from_axis w - r * r = vdot (cut2 d') (cut2 d') * (t * t) + 2 * vdot (cut2 d') (cut2 o') * t + (vdot (cut2 o') (cut2 o') - r * r)).
    { unfold w, from_axis, vdot. cbn. ring. }
    rewrite <- W in Q. replace (from_axis p - r * r) with (((vx p * vx p - vx w * vx w) + (vy p * vy p - vy w * vy w)) + (from_axis w - r * r)) by (unfold from_axis; ring).
    eapply Rle_trans; [apply abs_tri; [apply abs_tri; eassumption|exact Q]|]. assert (0 <= u * (S * S)) by (apply Rmult_le_pos; nra). lra.
  Qed.

  (** *** Planes: ends, faces of cubes *)
  Theorem face_on : forall r o d t x y h S, rdot rnd (pairs r o) x -> rdot rnd (pairs r d) y -> fl_face_hit rnd h x y t ->
    terms r o d t <= S -> Rabs h <= S -> lo <= S -> Rabs (vx r) <= / lo -> Rabs (vy r) <= / lo -> Rabs (vz r) <= / lo -> Rabs (vw r) <= / lo -> Rabs y <= / lo ->
    Rabs (vdot r (fl_move rnd o d t) - h) <= 32 * u * S.
  Proof.
    intros r o d t x y h S X Y (NC & F) T HS LS Rx Ry Rz Rw YL. apply isclose0_false in NC. unfold atol in NC. pose proof lo_sqr as (Q1 & Q2).
    pose proof (origin_small _ _ _ _ _ _ X T LS) as BX. assert (S0 : 0 < S) by lra. assert (US : 0 <= u * S) by nra. assert (Es : eta <= u * S) by (apply eta_below; lra).
    assert (Ey : eta <= u * Rabs y) by (apply eta_below; lra).
    assert (US2 : u * S <= / 1000000 * S) by (apply Rmult_le_compat_r; lra).
    set (den := rnd (y + 0)) in *. assert (DY : Rabs (den - y) <= 2 * u * Rabs y). { unfold den. rewrite Rplus_0_r. pose proof (RW y). lra. }
    assert (Y0 : 0 < Rabs y) by lra. assert (UY : u * Rabs y <= / 1000000 * Rabs y) by (apply Rmult_le_compat_r; lra).
    assert (DB : 0.999 * Rabs y <= Rabs den). { replace y with (den + - (den - y)) at 1 by ring. assert (H : Rabs (den + - (den - y)) <= Rabs den + Rabs (den - y)) by (eapply Rle_trans; [apply Rabs_triang|]; rewrite Rabs_Ropp; lra). 
      replace (den + - (den - y)) with y in * by ring. lra. }
    assert (DN : den <> 0). { intro E. rewrite E, Rabs_R0 in DB. lra. }
    assert (BH : Rabs (h - x) <= 2.001 * S). { unfold Rminus. eapply Rle_trans; [apply abs_tri; [exact HS|rewrite Rabs_Ropp; exact BX]|]. lra. }
    assert (N : exists num, Rabs (num - (h - x)) <= 3.1 * u * S /\ t = rnd (num / den)).
    { destruct F as [-> | [-> | (-> & ->)]].
      - exists (rnd (h - x)). split; auto. apply (rnd_by rnd u eta U0 RW _ 2.001); auto; lra.
      - exists (- rnd (x - h)). split; auto. replace (- rnd (x - h) - (h - x)) with (- (rnd (x - h) - (x - h))) by ring. rewrite Rabs_Ropp. apply (rnd_by rnd u eta U0 RW _ 2.001); auto; try lra. rewrite Rabs_minus_sym. auto.
      - exists (- x). split; auto. replace (- x - (0 - x)) with 0 by ring. rewrite Rabs_R0. lra. }
    destruct N as (num & HN & HT).
    assert (BN : Rabs num <= 2.01 * S) by (apply (near_size u U0 U1 _ (h - x) 3.1 2.001); auto; lra).
    assert (QY : Rabs (y / den) <= 1.01).
    { unfold Rdiv. rewrite Rabs_mult, Rabs_inv. apply (Rmult_le_reg_r (Rabs den)); [lra|]. rewrite Rmult_assoc, Rinv_l by lra. lra. }
    assert (QD : Rabs ((den - y) / den) <= 2.1 * u).
    { unfold Rdiv. rewrite Rabs_mult, Rabs_inv. apply (Rmult_le_reg_r (Rabs den)); [lra|]. rewrite Rmult_assoc, Rinv_l, Rmult_1_r by lra. assert (u * (0.999 * Rabs y) <= u * Rabs den) by (apply Rmult_le_compat_l; auto). assert (0 <= u * Rabs den) by (apply Rmult_le_pos; lra). lra. }
    assert (RT : Rabs (t - num / den) <= u * Rabs (num / den) + eta) by (rewrite HT; apply RW).
    assert (RY : Rabs ((t - num / den) * y) <= 2.1 * u * S + 0.1 * u * S).
    { eapply Rle_trans; [apply abs_mul_le; [exact RT|apply Rle_refl]|]. assert (A : Rabs (num / den) * Rabs y <= 2.01 * S * 1.01).
      { rewrite <- Rabs_mult. replace (num / den * y) with (num * (y / den)) by (field; auto). apply abs_mul_le; auto. }
      assert (u * (Rabs (num / den) * Rabs y) <= u * (2.01 * S * 1.01)) by (apply Rmult_le_compat_l; auto).
      assert (B : eta * Rabs y <= u * lo ^ 4 * / lo) by (apply Rmult_le_compat; auto using Rabs_pos). replace (u * lo ^ 4 * / lo) with (u * (lo * (lo * lo))) in B by (field; lra).
      assert (LLL : lo * (lo * lo) <= lo * 0.01) by (apply Rmult_le_compat_l; lra). assert (u * (lo * (lo * lo)) <= u * (0.01 * S)) by (apply Rmult_le_compat_l; auto; lra). lra. }
    assert (E : Rabs (x + t * y - h) <= 12 * u * S).
    { replace (x + t * y - h) with (((t - num / den) * y + - (num * ((den - y) / den))) + (num - (h - x))) by (field; auto).
      eapply Rle_trans; [apply abs_tri; [apply abs_tri; [exact RY|rewrite Rabs_Ropp; apply abs_mul_le; [exact BN|exact QD]]|exact HN]|]. lra. }
    assert (BT : Rabs t <= 3 * (S / Rabs y)).
    { assert (A : Rabs (num / den) <= 2.01 * S / (0.999 * Rabs y)).
      { unfold Rdiv. rewrite Rabs_mult, Rabs_inv. apply Rmult_le_compat; auto using Rabs_pos; [left; apply Rinv_0_lt_compat; lra|apply Rinv_le_contravar; lra]. }
      replace t with ((t - num / den) + num / den) by ring. eapply Rle_trans; [apply abs_tri; [exact RT|exact A]|].
      assert (P : 0 < S / Rabs y) by (apply Rdiv_lt_0_compat; auto). replace (2.01 * S / (0.999 * Rabs y)) with (2.01 / 0.999 * (S / Rabs y)) in * by (field; lra).
      assert (u * Rabs (num / den) <= / 1000000 * (2.01 / 0.999 * (S / Rabs y))) by (apply Rmult_le_compat; auto using Rabs_pos).
      assert (EE : eta <= / 1000000 * (S / Rabs y)).
      { eapply Rle_trans; [exact E4|]. apply Rmult_le_compat; auto; [apply pow_le; lra|]. apply (Rmult_le_reg_r (Rabs y)); auto. replace (S / Rabs y * Rabs y) with S by (field; lra).
        apply Rle_trans with (lo ^ 4 * / lo); [apply Rmult_le_compat_l; [apply pow_le; lra|auto]|]. replace (lo ^ 4 * / lo) with (lo * (lo * lo)) by (field; lra). assert (lo * (lo * lo) <= lo * 1) by (apply Rmult_le_compat_l; lra). lra. }
      lra. }
    assert (ET : eta * (1 + Rabs t) <= u * S).
    { apply far_reach; auto. eapply Rle_trans; [exact BT|]. apply over_small; lra. }
    destruct (row_close rnd lo u eta CL RW r o d t x y S) as (P & _ & _); auto.
    replace (vdot r (fl_move rnd o d t) - h) with ((vdot r (fl_move rnd o d t) - (x + t * y)) + (x + t * y - h)) by ring. eapply Rle_trans; [apply abs_tri; eassumption|]. lra.
  Qed.
End On.
