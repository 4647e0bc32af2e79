(** * FlBowlSure: clear crossings of paraboloids, and rays that leave one along its axis, with rounding *)
From Coq Require Import Reals List Bool ZArith Permutation Lra Lia Psatz.
Import ListNotations.
From Verif Require Import XR XRFacts Lin LinFacts Fl SpecFl FlFacts FlProps FlHits SpecFlHits FlHitsFacts FlHitsRoot FlHitsProps FlHitsOn FlHitsBowl FlHitsSure FlStep SpecFlStep FlStepProps FlBowl SpecFlBowl FlBowlProps FlBowlLine.
Open Scope R_scope.

Section Sure.
  Variable rnd : R -> R.
  Variables lo u eta : R.
  Hypothesis CL : clear lo u eta.
  Hypothesis UP : 0 < u.
  Hypothesis RW : rounds_within u eta rnd.
  Let U0 : 0 <= u. Proof. lra. Qed.
  Let U1 : u <= / 1000000. Proof. destruct CL as (_ & (_ & H) & _). exact H. Qed.
  Let E0 : 0 <= eta. Proof. destruct CL as (_ & _ & (H & _)). exact H. Qed.
  Let E4 : eta <= u * lo ^ 4. Proof. destruct CL as (_ & _ & (_ & H)). exact H. Qed.
  Let L0 : 0 < lo. Proof. destruct CL as ((H & _) & _). exact H. Qed.
  Let L9 : lo <= / 1000000000. Proof. destruct CL as ((_ & H) & _). exact H. Qed.

  Section Clear.
    Variables o d : v4.
    Variables f S : R.
    Hypothesis HD : from_axis d <= / lo * / lo.
    Hypothesis HO : from_axis o <= S * S.
    Hypothesis HZ : Rabs (vz o) <= S.
    Hypothesis FL : lo <= f.
    Hypothesis FS : f <= S.
    Let M := S + climb f d.
    Let S0 : 0 < S. Proof. lra. Qed.
    Let HO2 : from_axis o <= (2 * S) * (2 * S). Proof. nra. Qed.
    Let HZ2 : Rabs (vz o) <= 1.001 * S. Proof. lra. Qed.
    Let N := 3 * S + 4 * climb f d.
    Let NM : 0 <= climb f d -> u * (N * N) <= 16 * u * (M * M).
    Proof. intros C0. replace (16 * u * (M * M)) with (u * ((4 * M) * (4 * M))) by ring. apply Rmult_le_compat_l; auto. unfold N, M. apply Rmult_le_compat; lra. Qed.
    (** the quadratic along the line *)
    Let along : forall s B t, s * s = from_axis d -> B = 2 * (vx o * vx d + vy o * vy d - 2 * f * vz d) ->
      from_bowl f (vadd o (vscale t d)) = s * s * (t * t) + B * t + from_bowl f o.
    Proof. intros s B t -> ->. unfold from_bowl, from_axis. cbn. ring. Qed.

    Theorem bowl_found : (exists t, from_bowl f (vadd o (vscale t d)) <= - (2048 * u * (M * M))) -> ~ fl_bowl_miss rnd f o d.
    Proof.
      intros (t & T) (a & b & c & (q & cc & H1 & H2 & H3 & NC & -> & ->) & F).
      destruct (bowl_coefs rnd lo u eta CL UP RW f S a q cc o d FL FS HO2 HZ2 HD H1 H2 H3 NC) as (Sp & Mp & C0 & (E1 & E2 & E3 & E5) & BB & BC & Ca & Cb & Cc & Cd).
      pose proof (disc_true rnd u eta U0 RW U1 _ _ _ _ _ _ _ Sp Mp E1 E3 BB BC Ca Cb Cc) as DT. apply abs_le_both in DT. specialize (NM C0). fold N in DT.
      set (s := sqrt (from_axis d)) in *. set (B := 2 * (vx o * vx d + vy o * vy d - 2 * f * vz d)) in *.
      assert (SS : s * s = from_axis d) by (apply sqrt_sqrt; unfold from_axis; nra). rewrite (along s B t SS eq_refl) in T. set (C := from_bowl f o) in *.
      assert (S2 : 0 < s * s) by (apply Rmult_lt_0_compat; auto).
      assert (Q : s * s * (t * t) + B * t + C <= - (128 * u * (N * N))) by lra.
      assert (Q4 : 4 * (s * s) * (s * s * (t * t) + B * t + C) <= 4 * (s * s) * - (128 * u * (N * N))) by (apply Rmult_le_compat_l; lra).
      replace (4 * (s * s) * (s * s * (t * t) + B * t + C)) with ((2 * (s * s) * t + B) * (2 * (s * s) * t + B) - (B * B - 4 * (s * s) * C)) in Q4 by ring.
      replace (4 * (s * s) * - (128 * u * (N * N))) with (- (512 * u * (s * N * (s * N)))) in Q4 by ring.
      pose proof (Rle_0_sqr (2 * (s * s) * t + B)) as P. unfold Rsqr in P. assert (0 <= u * (s * N * (s * N))) by (apply Rmult_le_pos; [auto|apply Rle_0_sqr]). lra.
    Qed.
    Theorem bowl_missed : (forall t, 2048 * u * (M * M) <= from_bowl f (vadd o (vscale t d))) -> forall t0 t1, ~ fl_bowl_hits rnd f o d t0 t1.
    Proof.
      intros T t0 t1 (a & b & c & (q & cc & H1 & H2 & H3 & NC & -> & ->) & (F & _)).
      destruct (bowl_coefs rnd lo u eta CL UP RW f S a q cc o d FL FS HO2 HZ2 HD H1 H2 H3 NC) as (Sp & Mp & C0 & (E1 & E2 & E3 & E5) & BB & BC & Ca & Cb & Cc & Cd).
      pose proof (disc_true rnd u eta U0 RW U1 _ _ _ _ _ _ _ Sp Mp E1 E3 BB BC Ca Cb Cc) as DT. apply abs_le_both in DT. specialize (NM C0). fold N in DT, Mp.
      set (s := sqrt (from_axis d)) in *. set (B := 2 * (vx o * vx d + vy o * vy d - 2 * f * vz d)) in *.
      assert (SS : s * s = from_axis d) by (apply sqrt_sqrt; unfold from_axis; nra). set (t := - B / (2 * (s * s))). specialize (T t). rewrite (along s B t SS eq_refl) in T. set (C := from_bowl f o) in *.
      assert (S2 : 0 < s * s) by (apply Rmult_lt_0_compat; auto).
      assert (Q : 128 * u * (N * N) <= s * s * (t * t) + B * t + C) by lra.
      assert (Q4 : 4 * (s * s) * (128 * u * (N * N)) <= 4 * (s * s) * (s * s * (t * t) + B * t + C)) by (apply Rmult_le_compat_l; lra).
      replace (4 * (s * s) * (s * s * (t * t) + B * t + C)) with ((2 * (s * s) * t + B) * (2 * (s * s) * t + B) - (B * B - 4 * (s * s) * C)) in Q4 by ring.
      replace (4 * (s * s) * (128 * u * (N * N))) with (512 * u * (s * N * (s * N))) in Q4 by ring.
      assert (Z : 2 * (s * s) * t + B = 0) by (unfold t; field; lra). rewrite Z in Q4. assert (0 < s * N) by (apply Rmult_lt_0_compat; auto). assert (0 < u * (s * N * (s * N))) by (apply Rmult_lt_0_compat; [auto|apply Rmult_lt_0_compat; auto]). lra.
    Qed.
    Theorem bowl_behind : 4096 * u * (M * M) <= from_bowl f o -> 0 <= vx o * vx d + vy o * vy d - 2 * f * vz d -> forall t0 t1, fl_bowl_hits rnd f o d t0 t1 -> t0 < 0 /\ t1 < 0.
    Proof.
      intros T A t0 t1 (a & b & c & (q & cc & H1 & H2 & H3 & NC & -> & ->) & F).
      destruct (bowl_coefs rnd lo u eta CL UP RW f S a q cc o d FL FS HO2 HZ2 HD H1 H2 H3 NC) as (Sp & Mp & C0 & (E1 & E2 & E3 & E5) & BB & BC & Ca & Cb & Cc & Cd). specialize (NM C0).
      eapply (behind rnd u eta U0 E0 RW U1 _ _ _ _ a _ _ Sp Mp E1 E2 E3 E5 BB BC Ca Cb Cc _ t0 t1 UP Cd); [lra|fold N; lra|exact F].
    Qed.
    Theorem bowl_within : from_bowl f o <= - (4096 * u * (M * M)) -> ~ fl_bowl_miss rnd f o d /\ forall t0 t1, fl_bowl_hits rnd f o d t0 t1 -> t1 < 0 < t0.
    Proof.
      intros T.
      assert (G : forall a q cc, rdot rnd (pairs2 d d) a -> rdot rnd (pairs2 o d) q -> rdot rnd (pairs2 o o) cc -> isclose a 0 = false ->
        let b := rnd (rnd (2 * q) - rnd (rnd (4 * f) * vz d)) in let c := rnd (cc - rnd (rnd (4 * f) * vz o)) in let den := rnd (rnd (2 * a) + 0) in
        0 <= fl_disc rnd a b c /\ fl_root rnd (-1) a b c den < 0 < fl_root rnd 1 a b c den).
      { intros a q cc H1 H2 H3 NC. cbn zeta.
        destruct (bowl_coefs rnd lo u eta CL UP RW f S a q cc o d FL FS HO2 HZ2 HD H1 H2 H3 NC) as (Sp & Mp & C0 & (E1 & E2 & E3 & E5) & BB & BC & Ca & Cb & Cc & Cd). specialize (NM C0).
        apply (within rnd u eta U0 E0 RW U1 _ _ _ _ a _ _ Sp Mp E1 E2 E3 E5 BB BC Ca Cb Cc _ UP Cd). fold N. lra. }
      split.
      - intros (a & b & c & (q & cc & H1 & H2 & H3 & NC & -> & ->) & F). destruct (G a q cc H1 H2 H3 NC) as (D & _). lra.
      - intros t0 t1 (a & b & c & (q & cc & H1 & H2 & H3 & NC & -> & ->) & (F & -> & ->)). destruct (G a q cc H1 H2 H3 NC) as (_ & D). exact D.
    Qed.
  End Clear.

  (** Leaving along the axis, to either side *)
  Theorem line_left : forall m f h S E p v o2 v2, lo <= h <= 1 -> fl_image rnd m (fl_step rnd h p v) o2 -> fl_image rnd m v v2 -> reach m p v h S ->
    lo <= f <= S -> entries_below m (/ lo) -> Rabs (from_bowl f (mapply m p)) <= E ->
    E + 2048 * u * (S * S) <= h * rate_from_bowl m f p v \/ h * rate_from_bowl m f p v + h * h * from_axis (mapply m v) <= - (E + 2048 * u * (S * S)) ->
    forall t, fl_bowl_line rnd f o2 v2 t -> t < 0.
  Proof.
    intros m f h S E p v o2 v2 (HL & HH) I1 I2 RE (FL & FS) EB ON OUT t (a & q & cc & b & c & H1 & H2 & H3 & CA & Hb & Hc & NB & Ht).
    assert (HH' : 0 < h <= 1) by lra. assert (LS : lo <= S) by lra. assert (S0 : 0 < S) by lra. pose proof (lo4 lo u eta CL) as (K1 & K2 & K3 & K4 & K5).
    destruct (bowl_moved rnd lo u eta CL UP RW m f h S p v o2 v2 HH' I1 I2 RE FL FS EB) as (M1 & M2 & _ & _).
    destruct (stepped rnd lo u eta CL UP RW m p v h o2 v2 S HH' I1 I2 RE LS EB) as ((X1 & X2 & X3 & X4) & (Y1 & Y2 & Y3 & Y4) & (Z1 & Z2 & Z3 & Z4)). cbv zeta in *.
    assert (US : u * S <= / 1000000 * S) by (apply Rmult_le_compat_r; lra).
    assert (PO : forall x y, Rabs (x - y) <= 64 * u * S -> Rabs y <= S -> Rabs x <= 1.002 * S) by (intros x y A B; replace x with ((x - y) + y) by ring; eapply Rle_trans; [apply abs_tri; eassumption|lra]).
    assert (PV : forall x y, h * Rabs (x - y) <= 16 * u * S -> h * Rabs y <= S -> h * Rabs x <= 1.002 * S).
    { intros x y A B. assert (C : Rabs x <= Rabs (x - y) + Rabs y) by (replace x with ((x - y) + y) at 1 by ring; apply Rabs_triang). assert (h * Rabs x <= h * (Rabs (x - y) + Rabs y)) by (apply Rmult_le_compat_l; lra). lra. }
    set (W := S * S) in *. assert (W0 : 0 < W) by (unfold W; nra). assert (UW : 0 < u * W) by (apply Rmult_lt_0_compat; auto).
    assert (LW : lo * lo <= W) by (unfold W; apply Rmult_le_compat; lra).
    assert (E1 : eta <= / 1000000 * (u * W)). { eapply Rle_trans; [exact E4|]. assert (u * lo ^ 4 <= u * (/ 1000000 * W)) by (apply Rmult_le_compat_l; lra). lra. }
    assert (EH : eta * h <= / 1000000 * (u * W)). { assert (eta * h <= eta * 1) by (apply Rmult_le_compat_l; lra). lra. }
    destruct (line_coefs rnd lo u eta CL UP RW f S h q cc o2 v2) as (B1 & B2 & C1 & C2); eauto; try lra. cbv zeta in *. rewrite <- Hb, <- Hc in *. fold W in B1, B2, C1, C2.
    set (F2 := from_bowl f o2) in *. set (B := vx o2 * vx v2 + vy o2 * vy v2 - 2 * f * vz v2) in *. set (rate := rate_from_bowl m f p v) in *. set (aa := from_axis (mapply m v)) in *.
    assert (HR : forall x, h * Rabs x = Rabs (h * x)) by (intro x; rewrite Rabs_mult, (Rabs_right h) by lra; reflexivity). rewrite HR in B1, M2.
    apply abs_both in M1. apply abs_both in M2. apply abs_both in B1. apply abs_both in C1. apply abs_both in ON.
    assert (VV : 0 <= h * h * aa) by (unfold aa, from_axis; apply Rmult_le_pos; nra).
    assert (E00 : 0 <= E) by lra.
    assert (SG : 0 < b * c /\ 100 * (u * W) <= Rabs c).
    { destruct OUT as [OUT|OUT].
      - assert (HB : 0 < h * b) by lra. assert (PB : 0 < b) by (apply Rmult_lt_reg_l with h; lra). assert (PC : 100 * (u * W) <= c) by lra.
        rewrite Rabs_right by lra. split; [apply Rmult_lt_0_compat; lra|lra].
      - assert (HB : 0 < h * - b) by lra. assert (PB : 0 < - b) by (apply Rmult_lt_reg_l with h; lra). assert (PC : c <= - (100 * (u * W))) by lra.
        rewrite Rabs_left by lra. split; [replace (b * c) with (- b * - c) by ring; apply Rmult_lt_0_compat; lra|lra]. }
    destruct SG as (SG & CB).
    destruct (isclose_apart rnd lo u eta CL RW b NB) as (N0 & N1 & N2 & N3). set (rb := rnd (b + 0)) in *.
    assert (SN : 0 < c * rb).
    { assert (P : 0 < (b * c) * (b * rb)) by (apply Rmult_lt_0_compat; auto). replace ((b * c) * (b * rb)) with ((b * b) * (c * rb)) in P by ring.
      destruct (Rlt_or_le 0 (c * rb)) as [|G]; auto. exfalso. assert (0 <= b * b) by nra. assert (0 <= (b * b) * - (c * rb)) by (apply Rmult_le_pos; lra). lra. }
    assert (QN : - c / rb < 0).
    { replace (- c / rb) with (- ((c * rb) * / (rb * rb))) by (field; auto). assert (0 < rb * rb) by (destruct (Rtotal_order rb 0) as [|[|]]; nra). assert (0 < / (rb * rb)) by (apply Rinv_0_lt_compat; auto).
      assert (0 < (c * rb) * / (rb * rb)) by (apply Rmult_lt_0_compat; lra). lra. }
    (* the quotient is far from 0 *)
    assert (QB : 5 * (u * h) <= Rabs (- c / rb)).
    { assert (RP : 0 < Rabs rb) by (apply Rabs_pos_lt; auto). unfold Rdiv. rewrite Rabs_mult, Rabs_Ropp, Rabs_inv. apply (Rmult_le_reg_r (Rabs rb)); auto.
      replace (Rabs c * / Rabs rb * Rabs rb) with (Rabs c) by (field; lra).
      assert (A : u * (h * Rabs rb) <= u * (h * (2 * Rabs b))) by (apply Rmult_le_compat_l; auto; apply Rmult_le_compat_l; lra).
      assert (A2 : u * (h * Rabs b) <= u * (8.4 * W)) by (apply Rmult_le_compat_l; auto). lra. }
    assert (EQ : 3 * eta <= Rabs (- c / rb)).
    { assert (A : u * lo <= u * h) by (apply Rmult_le_compat_l; auto). assert (A2 : eta <= u * lo) by (apply (eta_below lo u eta CL); lra). lra. }
    destruct (rnd_keeps rnd lo u eta CL RW (- c / rb) EQ) as (G & _); [lra|]. rewrite <- Ht in G.
    destruct (Rlt_or_le t 0); auto. exfalso. assert (0 <= - (- c / rb) * t) by (apply Rmult_le_pos; lra). lra.
  Qed.
End Sure.
