(** * FlHitsSure2: clear crossings of spheres and cylinders are found, and no others *)
From Coq Require Import Reals List Bool ZArith Permutation Lra Lia Psatz.
Import ListNotations.
From Verif Require Import XR XRFacts Lin Fl SpecFl FlFacts FlProps FlHits SpecFlHits FlHitsFacts FlHitsRoot FlHitsProps FlHitsOn FlHitsSure.
Open Scope R_scope.

Section Sure.
  Variable rnd : R -> R.
  Variables lo u eta : R.
  Hypothesis CL : clear lo u eta.
  Hypothesis UP : 0 < u.
  Hypothesis RW : rounds_within u eta rnd.
  Let U0 : 0 <= u. Proof. lra. Qed.
  Let U1 : u <= / 1000000. Proof. destruct CL as (_ & (_ & H) & _). exact H. Qed.
  Let E0 : 0 <= eta. Proof. destruct CL as (_ & _ & (H & _)). exact H. Qed.
  Let L0 : 0 < lo. Proof. destruct CL as ((H & _) & _). exact H. Qed.

  Section Round.
    Variables l1 l2 l3 : list (R * R).
    Variables D O : v4.
    Variables a q cc r M : R.
    Hypothesis H1 : rdot rnd l1 a.
    Hypothesis H2 : rdot rnd l2 q.
    Hypothesis H3 : rdot rnd l3 cc.
    Hypothesis R1 : rsum l1 = vdot D D.
    Hypothesis A1 : asum l1 = vdot D D.
    Hypothesis R2 : rsum l2 = vdot D O.
    Hypothesis A2 : asum l2 <= vnorm D * vnorm O.
    Hypothesis R3 : rsum l3 = vdot O O.
    Hypothesis A3 : asum l3 = vdot O O.
    Hypothesis N1 : (length l1 <= 3)%nat.
    Hypothesis N2 : (length l2 <= 3)%nat.
    Hypothesis N3 : (length l3 <= 3)%nat.
    Hypothesis LD : lo * lo <= vdot D D.
    Hypothesis UD : vnorm D <= / lo.
    Hypothesis LO : vnorm O <= M.
    Hypothesis LR : 0 <= r <= M.
    Hypothesis LM : lo <= M.
    Let s := vnorm D.
    Let b := rnd (2 * q).
    Let c := rnd (cc - rnd (r * r)).
    Let B := 2 * vdot D O.
    Let C := vdot O O - r * r.
    Lemma coefs : 0 < s /\ 0 < M /\ (eta <= u * (s * s) /\ eta <= u * (s * M) /\ eta <= u * ((s * M) * (s * M)) /\ eta <= u * (M / s)) /\ Rabs B <= 2 * (s * M) /\ Rabs C <= M * M /\
      Rabs (a - s * s) <= 32 * u * (s * s) /\ Rabs (b - B) <= 32 * u * (s * M) /\ Rabs (c - C) <= 32 * u * (M * M) /\
      Rabs (rnd (2 * a) - 2 * a) <= 32 * u * (s * s) /\ Rabs (rnd (rnd (2 * a) + 0) - 2 * a) <= 32 * u * (s * s).
    Proof.
      pose proof (vnorm_sqr D) as SD. pose proof (vnorm_sqr O) as SO. pose proof (vnorm_nonneg D) as PD. pose proof (vnorm_nonneg O) as PO. fold s in SD, PD.
      assert (LD' : lo * lo <= s * s) by (rewrite SD; auto). assert (S0 : 0 < s) by nra. destruct (far lo u eta CL s M LD' S0 UD LM) as (F1 & F2 & F3 & F4 & F5).
      assert (M0 : 0 < M) by lra. assert (DM : s * vnorm O <= s * M) by (apply Rmult_le_compat_l; auto).
      assert (BO : vdot O O <= M * M) by (rewrite <- SO; apply Rmult_le_compat; auto).
      assert (BR : r * r <= M * M) by (apply Rmult_le_compat; lra). assert (PM : 0 <= s * M) by (apply Rmult_le_pos; lra). assert (PMM : 0 <= M * M) by (apply Rmult_le_pos; lra).
      assert (BD : Rabs (vdot D O) <= s * M) by (rewrite <- R2; eapply Rle_trans; [apply rsum_abs|]; fold s in A2; lra).
      assert (Ca : Rabs (a - s * s) <= 32 * u * (s * s)) by (apply (coef_a rnd lo u eta CL RW l1); auto; rewrite SD; auto).
      assert (Cq : Rabs (q - vdot D O) <= 10 * u * (s * M)) by (apply (coef_q rnd lo u eta CL RW l2); auto; fold s in A2; lra).
      assert (Cc : Rabs (cc - vdot O O) <= 10 * u * (M * M)) by (apply (coef_q rnd lo u eta CL RW l3); auto; lra).
      pose proof (coef_b rnd lo u eta CL RW q _ _ PM F2 BD Cq) as Cb. assert (O0 : 0 <= vdot O O) by (rewrite <- SO; apply Rmult_le_pos; auto).
      pose proof (coef_c rnd lo u eta CL RW cc _ r _ PMM F3 (conj O0 BO) Cc BR) as Ccc. assert (PSS : 0 <= s * s) by (apply Rmult_le_pos; lra).
      destruct (coef_den rnd lo u eta CL RW a (s * s) PSS F1 Ca) as (D1 & D2).
      repeat split; auto.
      - unfold B. rewrite Rabs_mult, (Rabs_right 2) by lra. lra.
      - apply Rabs_le. pose proof (Rle_0_sqr r) as R0. unfold Rsqr in R0. unfold C. lra.
      - eapply Rle_trans; [exact Cb|]. assert (0 <= u * (s * M)) by (apply Rmult_le_pos; auto). lra.
    Qed.
    (** the quadratic along the line *)
    Lemma along : forall t, vdot (vadd O (vscale t D)) (vadd O (vscale t D)) - r * r = s * s * (t * t) + B * t + C.
    Proof. intro t. unfold s. rewrite vnorm_sqr. unfold B, C, vdot, vadd, vscale. cbn. ring. Qed.
    Lemma found : (exists t, vdot (vadd O (vscale t D)) (vadd O (vscale t D)) <= r * r - 128 * u * (M * M)) -> 0 <= fl_disc rnd a b c.
    Proof.
      intros (t & T). destruct coefs as (S0 & M0 & (E1 & E2 & E3 & E5) & BB & BC & Ca & Cb & Cc & _). pose proof (along t) as AL.
      pose proof (disc_true rnd u eta U0 RW U1 s M B C a b c S0 M0 E1 E3 BB BC Ca Cb Cc) as DT. apply abs_le_both in DT.
      assert (Q : s * s * (t * t) + B * t + C <= - (128 * u * (M * M))) by lra. assert (SS : 0 < s * s) by (apply Rmult_lt_0_compat; auto).
      assert (Q4 : 4 * (s * s) * (s * s * (t * t) + B * t + C) <= 4 * (s * s) * - (128 * u * (M * M))) by (apply Rmult_le_compat_l; lra).
      replace (4 * (s * s) * (s * s * (t * t) + B * t + C)) with ((2 * (s * s) * t + B) * (2 * (s * s) * t + B) - (B * B - 4 * (s * s) * C)) in Q4 by ring.
      replace (4 * (s * s) * - (128 * u * (M * M))) with (- (512 * u * (s * M * (s * M)))) in Q4 by ring.
      pose proof (Rle_0_sqr (2 * (s * s) * t + B)) as P. unfold Rsqr in P. assert (0 <= u * (s * M * (s * M))) by (apply Rmult_le_pos; [auto|apply Rle_0_sqr]). lra.
    Qed.
    Lemma missed : (forall t, r * r + 128 * u * (M * M) <= vdot (vadd O (vscale t D)) (vadd O (vscale t D))) -> fl_disc rnd a b c < 0.
    Proof.
      intros T. destruct coefs as (S0 & M0 & (E1 & E2 & E3 & E5) & BB & BC & Ca & Cb & Cc & _). assert (SS : 0 < s * s) by (apply Rmult_lt_0_compat; auto).
      set (t := - B / (2 * (s * s))). specialize (T t). pose proof (along t) as AL.
      pose proof (disc_true rnd u eta U0 RW U1 s M B C a b c S0 M0 E1 E3 BB BC Ca Cb Cc) as DT. apply abs_le_both in DT.
      assert (Q : 128 * u * (M * M) <= s * s * (t * t) + B * t + C) by lra.
      assert (Q4 : 4 * (s * s) * (128 * u * (M * M)) <= 4 * (s * s) * (s * s * (t * t) + B * t + C)) by (apply Rmult_le_compat_l; lra).
      replace (4 * (s * s) * (s * s * (t * t) + B * t + C)) with ((2 * (s * s) * t + B) * (2 * (s * s) * t + B) - (B * B - 4 * (s * s) * C)) in Q4 by ring.
      replace (4 * (s * s) * (128 * u * (M * M))) with (512 * u * (s * M * (s * M))) in Q4 by ring.
      assert (Z : 2 * (s * s) * t + B = 0) by (unfold t; field; lra). rewrite Z in Q4. assert (0 < s * M) by (apply Rmult_lt_0_compat; auto). assert (0 < u * (s * M * (s * M))) by (apply Rmult_lt_0_compat; [auto|apply Rmult_lt_0_compat; auto]). lra.
    Qed.
    Lemma left_behind : forall den t0 t1, den = rnd (2 * a) \/ den = rnd (rnd (2 * a) + 0) -> 0 <= vdot D O -> r * r + 256 * u * (M * M) <= vdot O O -> fl_roots rnd a b c den t0 t1 -> t0 < 0 /\ t1 < 0.
    Proof.
      intros den t0 t1 HD DO OO F. destruct coefs as (S0 & M0 & (E1 & E2 & E3 & E5) & BB & BC & Ca & Cb & Cc & D1 & D2).
      apply (behind rnd u eta U0 E0 RW U1 s M B C a b c S0 M0 E1 E2 E3 E5 BB BC Ca Cb Cc den); auto; [destruct HD as [-> | ->]; auto|unfold B; lra|unfold C; lra].
    Qed.
    Lemma enclosed : forall den, den = rnd (2 * a) \/ den = rnd (rnd (2 * a) + 0) -> vdot O O <= r * r - 256 * u * (M * M) ->
      0 <= fl_disc rnd a b c /\ fl_root rnd (-1) a b c den < 0 < fl_root rnd 1 a b c den.
    Proof.
      intros den HD OO. destruct coefs as (S0 & M0 & (E1 & E2 & E3 & E5) & BB & BC & Ca & Cb & Cc & D1 & D2).
      apply (within rnd u eta U0 E0 RW U1 s M B C a b c S0 M0 E1 E2 E3 E5 BB BC Ca Cb Cc den); auto; [destruct HD as [-> | ->]; auto|unfold C; lra].
    Qed.
  End Round.

  (** *** Spheres *)
  Section Sphere.
    Variables o d : v4.
    Variables r S : R.
    Hypothesis HD : lo * lo <= from_centre d <= / lo * / lo.
    Hypothesis HO : from_centre o <= S * S.
    Hypothesis HR : 0 <= r <= S.
    Hypothesis HS : lo <= S.
    Let DD : vdot (cut3 d) (cut3 d) = from_centre d. Proof. unfold vdot, from_centre; cbn; ring. Qed.
    Let OO : vdot (cut3 o) (cut3 o) = from_centre o. Proof. unfold vdot, from_centre; cbn; ring. Qed.
    Let ND : vnorm (cut3 d) <= / lo. Proof. pose proof (inv_lo lo u eta CL) as (I1 & _). apply le_of_sqr; [lra|]. rewrite vnorm_sqr, DD. apply HD. Qed.
    Let NO : vnorm (cut3 o) <= S. Proof. apply le_of_sqr; [lra|]. rewrite vnorm_sqr, OO. auto. Qed.
    Let LDD : lo * lo <= vdot (cut3 d) (cut3 d). Proof. rewrite DD. apply HD. Qed.
    Let at3 : forall t, vdot (vadd (cut3 o) (vscale t (cut3 d))) (vadd (cut3 o) (vscale t (cut3 d))) = from_centre (vadd o (vscale t d)).
    Proof. intro t. unfold vdot, from_centre. cbn. ring. Qed.
    Ltac sums := destruct (sum3 d d) as (R1 & _ & A1 & N1); destruct (sum3 d o) as (R2 & A2 & _ & N2); destruct (sum3 o o) as (R3 & _ & A3 & N3).
    Ltac close := auto; try (cbn [pairs2 pairs3 length]; lia).

    Theorem sphere_found : (exists t, from_centre (vadd o (vscale t d)) <= r * r - 128 * u * (S * S)) -> ~ fl_sphere_miss rnd r o d.
    Proof.
      intros (t & T) (a & b & c & (q & cc & H1 & H2 & H3 & -> & ->) & M). sums.
      assert (F : 0 <= fl_disc rnd a (rnd (2 * q)) (rnd (cc - rnd (r * r)))); [|lra].
      apply (found (pairs3 d d) (pairs3 d o) (pairs3 o o) (cut3 d) (cut3 o) a q cc r S); close. exists t. rewrite at3. auto.
    Qed.
    Theorem sphere_missed : (forall t, r * r + 128 * u * (S * S) <= from_centre (vadd o (vscale t d))) -> forall t0 t1, ~ fl_sphere_hits rnd r o d t0 t1.
    Proof.
      intros T t0 t1 (a & b & c & (q & cc & H1 & H2 & H3 & -> & ->) & (M & _)). sums.
      assert (F : fl_disc rnd a (rnd (2 * q)) (rnd (cc - rnd (r * r))) < 0); [|lra].
      apply (missed (pairs3 d d) (pairs3 d o) (pairs3 o o) (cut3 d) (cut3 o) a q cc r S); close. intro t. rewrite at3. auto.
    Qed.
    Theorem sphere_behind : r * r + 256 * u * (S * S) <= from_centre o -> 0 <= vx d * vx o + vy d * vy o + vz d * vz o -> forall t0 t1, fl_sphere_hits rnd r o d t0 t1 -> t0 < 0 /\ t1 < 0.
    Proof.
      intros T A t0 t1 (a & b & c & (q & cc & H1 & H2 & H3 & -> & ->) & F). sums.
      apply (left_behind (pairs3 d d) (pairs3 d o) (pairs3 o o) (cut3 d) (cut3 o) a q cc r S H1 H2 H3) with (den := rnd (2 * a)); close.
      - unfold vdot. cbn. lra.
      - rewrite OO. auto.
    Qed.
    Theorem sphere_within : from_centre o <= r * r - 256 * u * (S * S) -> ~ fl_sphere_miss rnd r o d /\ forall t0 t1, fl_sphere_hits rnd r o d t0 t1 -> t1 < 0 < t0.
    Proof.
      intros T. split.
      - intros (a & b & c & (q & cc & H1 & H2 & H3 & -> & ->) & F). sums.
        destruct (enclosed (pairs3 d d) (pairs3 d o) (pairs3 o o) (cut3 d) (cut3 o) a q cc r S H1 H2 H3) with (den := rnd (2 * a)) as (G & _); close; [rewrite OO; auto|]. lra.
      - intros t0 t1 (a & b & c & (q & cc & H1 & H2 & H3 & -> & ->) & (F & -> & ->)). sums.
        destruct (enclosed (pairs3 d d) (pairs3 d o) (pairs3 o o) (cut3 d) (cut3 o) a q cc r S H1 H2 H3) with (den := rnd (2 * a)) as (_ & G); close; rewrite OO; auto.
    Qed.
  End Sphere.

  (** *** The sides of cylinders *)
  Section Side.
    Variables o d : v4.
    Variables r S : R.
    Hypothesis HD : from_axis d <= / lo * / lo.
    Hypothesis HO : from_axis o <= S * S.
    Hypothesis HR : 0 <= r <= S.
    Hypothesis HS : lo <= S.
    Let DD : vdot (cut2 d) (cut2 d) = from_axis d. Proof. unfold vdot, from_axis; cbn; ring. Qed.
    Let OO : vdot (cut2 o) (cut2 o) = from_axis o. Proof. unfold vdot, from_axis; cbn; ring. Qed.
    Let ND : vnorm (cut2 d) <= / lo. Proof. pose proof (inv_lo lo u eta CL) as (I1 & _). apply le_of_sqr; [lra|]. rewrite vnorm_sqr, DD. apply HD. Qed.
    Let NO : vnorm (cut2 o) <= S. Proof. apply le_of_sqr; [lra|]. rewrite vnorm_sqr, OO. auto. Qed.
    Let at2 : forall t, vdot (vadd (cut2 o) (vscale t (cut2 d))) (vadd (cut2 o) (vscale t (cut2 d))) = from_axis (vadd o (vscale t d)).
    Proof. intro t. unfold vdot, from_axis. cbn. ring. Qed.
    Ltac sums := destruct (sum2 d d) as (R1 & _ & A1 & N1); destruct (sum2 d o) as (R2 & A2 & _ & N2); destruct (sum2 o o) as (R3 & _ & A3 & N3);
      match goal with H1 : rdot rnd (pairs2 d d) ?a, NC : isclose ?a 0 = false |- _ => assert (LDD : lo * lo <= vdot (cut2 d) (cut2 d)) by (apply (not_close rnd lo u eta CL RW _ _ a H1); auto; cbn [pairs2 length]; lia) end.
    Ltac close := auto; try (cbn [pairs2 pairs3 length]; lia).

    Theorem side_found : (exists t, from_axis (vadd o (vscale t d)) <= r * r - 128 * u * (S * S)) -> ~ fl_side_miss rnd r o d.
    Proof.
      intros (t & T) (a & b & c & (q & cc & H1 & H2 & H3 & NC & -> & ->) & M). sums.
      assert (F : 0 <= fl_disc rnd a (rnd (2 * q)) (rnd (cc - rnd (r * r)))); [|lra].
      apply (found (pairs2 d d) (pairs2 d o) (pairs2 o o) (cut2 d) (cut2 o) a q cc r S); close. exists t. rewrite at2. auto.
    Qed.
    Theorem side_missed : (forall t, r * r + 128 * u * (S * S) <= from_axis (vadd o (vscale t d))) -> forall t0 t1, ~ fl_side_hits rnd r o d t0 t1.
    Proof.
      intros T t0 t1 (a & b & c & (q & cc & H1 & H2 & H3 & NC & -> & ->) & (M & _)). sums.
      assert (F : fl_disc rnd a (rnd (2 * q)) (rnd (cc - rnd (r * r))) < 0); [|lra].
      apply (missed (pairs2 d d) (pairs2 d o) (pairs2 o o) (cut2 d) (cut2 o) a q cc r S); close. intro t. rewrite at2. auto.
    Qed.
    Theorem side_behind : r * r + 256 * u * (S * S) <= from_axis o -> 0 <= vx d * vx o + vy d * vy o -> forall t0 t1, fl_side_hits rnd r o d t0 t1 -> t0 < 0 /\ t1 < 0.
    Proof.
      intros T A t0 t1 (a & b & c & (q & cc & H1 & H2 & H3 & NC & -> & ->) & F). sums.
      apply (left_behind (pairs2 d d) (pairs2 d o) (pairs2 o o) (cut2 d) (cut2 o) a q cc r S H1 H2 H3) with (den := rnd (rnd (2 * a) + 0)); close.
      - unfold vdot. cbn. lra.
      - rewrite OO. auto.
    Qed.
    Theorem side_within : from_axis o <= r * r - 256 * u * (S * S) -> ~ fl_side_miss rnd r o d /\ forall t0 t1, fl_side_hits rnd r o d t0 t1 -> t1 < 0 < t0.
    Proof.
      intros T. split.
      - intros (a & b & c & (q & cc & H1 & H2 & H3 & NC & -> & ->) & F). sums.
        destruct (enclosed (pairs2 d d) (pairs2 d o) (pairs2 o o) (cut2 d) (cut2 o) a q cc r S H1 H2 H3) with (den := rnd (rnd (2 * a) + 0)) as (G & _); close; [rewrite OO; auto|]. lra.
      - intros t0 t1 (a & b & c & (q & cc & H1 & H2 & H3 & NC & -> & ->) & (F & -> & ->)). sums.
        destruct (enclosed (pairs2 d d) (pairs2 d o) (pairs2 o o) (cut2 d) (cut2 o) a q cc r S H1 H2 H3) with (den := rnd (rnd (2 * a) + 0)) as (_ & G); close; rewrite OO; auto.
    Qed.
  End Side.
End Sure.
