(** * FlOptics: rounded optics obey the laws of reflection and refraction up to rounding *)
From Coq Require Import Reals List Bool ZArith Permutation Lra Lia Psatz.
Import ListNotations.
From Verif Require Import XR XRFacts Lin Fl SpecFl FlFacts FlProps SpecOptics SpecFlOptics.
Open Scope R_scope.

Lemma unit_norm : forall n, unit n -> vnorm n = 1.
Proof. intros n U. unfold vnorm. rewrite U. apply sqrt_1. Qed.
Lemma hat_unit : forall v, 0 < vdot v v -> unit (hat v).
Proof.
  intros v P. unfold unit, hat. replace (vdot (vscale (/ vnorm v) v) (vscale (/ vnorm v) v)) with (/ vnorm v * / vnorm v * vdot v v) by (unfold vdot, vscale; cbn; ring).
  rewrite <- vnorm_sqr in *. assert (vnorm v <> 0) by nra. field. auto.
Qed.
Lemma opp_unit : forall v, unit v -> unit (vopp v).
Proof. intros v U. unfold unit in *. rewrite <- U. unfold vdot, vopp, vscale; cbn. ring. Qed.
Lemma dot_abs : forall v w, Rabs (vdot v w) <= vnorm v * vnorm w.
Proof.
  intros v w. apply Rabs_le. pose proof (vdot_le v w) as A. pose proof (vdot_le (vopp v) w) as B. rewrite vnorm_opp in B.
  replace (vdot (vopp v) w) with (- vdot v w) in B by (unfold vdot, vopp, vscale; cbn; ring). lra.
Qed.
Lemma vdot_sub_l : forall a b c, vdot (vsub a b) c = vdot a c - vdot b c.
Proof. intros. unfold vdot, vsub, vadd, vopp, vscale; cbn. ring. Qed.
Lemma vdot_sub_r : forall a b c, vdot a (vsub b c) = vdot a b - vdot a c.
Proof. intros. unfold vdot, vsub, vadd, vopp, vscale; cbn. ring. Qed.
Lemma sub_add_tri : forall a b c, vnorm (vsub a c) <= vnorm (vsub a b) + vnorm (vsub b c).
Proof.
  intros a b c. replace (vsub a c) with (vadd (vsub a b) (vsub b c)) by (unfold vsub, vadd, vopp, vscale; destruct a, b, c; cbn; f_equal; ring). apply vnorm_add.
Qed.
Lemma tangential_sub : forall a b n, tangential (vsub a b) n = vsub (tangential a n) (tangential b n).
Proof. intros. unfold tangential, vdot, vsub, vadd, vopp, vscale; cbn. f_equal; ring. Qed.
Lemma tangential_add : forall a b n, tangential (vadd a b) n = vadd (tangential a n) (tangential b n).
Proof. intros. unfold tangential, vdot, vsub, vadd, vopp, vscale; cbn. f_equal; ring. Qed.
Lemma tangential_scale : forall k a n, tangential (vscale k a) n = vscale k (tangential a n).
Proof. intros. unfold tangential, vdot, vsub, vadd, vopp, vscale; cbn. f_equal; ring. Qed.
Lemma tangential_turn : forall a n, tangential a (vopp n) = tangential a n.
Proof. intros. unfold tangential, vdot, vsub, vadd, vopp, vscale; cbn. f_equal; ring. Qed.
Lemma tangential_square : forall a n, unit n -> vnorm (tangential a n) * vnorm (tangential a n) = vdot a a - vdot a n * vdot a n.
Proof.
  intros a n U. rewrite vnorm_sqr. unfold unit in U. replace (vdot (tangential a n) (tangential a n)) with (vdot a a - 2 * (vdot a n * vdot a n) + (vdot a n * vdot a n) * vdot n n) by (unfold tangential, vdot, vsub, vadd, vopp, vscale; cbn; ring).
  rewrite U. ring.
Qed.
Lemma tangential_le : forall a n, unit n -> vnorm (tangential a n) <= vnorm a.
Proof. intros a n U. apply le_of_sqr; [apply vnorm_nonneg|]. rewrite tangential_square, vnorm_sqr by auto. nra. Qed.
Lemma tangential_self : forall n, unit n -> vnorm (tangential n n) = 0.
Proof. intros n U. pose proof (tangential_square n n U) as H. rewrite U in H. pose proof (vnorm_nonneg (tangential n n)). nra. Qed.

Section Laws.
  Variable rnd : R -> R.
  Variables u eta : R.
  Hypothesis U0 : 0 <= u.
  Hypothesis E0 : 0 <= eta.
  Hypothesis RW : rounds_within u eta rnd.
  Hypothesis U1 : u <= / 1000000.
  Hypothesis E1 : eta <= u * / 1000000.

  Lemma normalize_close : forall v d, sizeable u eta v -> fl_normalize rnd v d -> vnorm (vsub d (hat v)) <= 20 * u.
  Proof.
    intros v d SZ (s & F & ->). pose proof (norm_error rnd u eta U0 E0 RW U1 E1 v s SZ F) as B. pose proof (vnorm_sqr v) as M2. pose proof (vnorm_nonneg v) as M0.
    destruct SZ as (P & _). unfold hat. remember (vnorm v) as m eqn:ME. assert (MP : 0 < m) by nra. apply abs_le_both in B. assert (SP : 0 < s) by nra.
    assert (IS : 0 < / s) by (apply Rinv_0_lt_compat; auto).
    pose proof (vround_close rnd u eta U0 E0 RW (vscale (/ s) v)) as V. rewrite vnorm_scale, <- ME, (Rabs_right (/ s)) in V by lra.
    assert (K1 : / s * m <= 1 + 17 * u). { apply (Rmult_le_reg_l s); auto. rewrite <- Rmult_assoc, Rinv_r, Rmult_1_l by lra. nra. }
    assert (K2 : 1 - 17 * u <= / s * m). { apply (Rmult_le_reg_l s); auto. rewrite <- Rmult_assoc, Rinv_r, Rmult_1_l by lra. nra. }
    pose proof (vsub_scale (/ s) (/ m) v v) as D. rewrite vsub_refl, <- ME in D.
    assert (D2 : Rabs (/ s - / m) * m <= 17 * u).
    { replace (Rabs (/ s - / m) * m) with (Rabs (/ s * m - 1)); [apply Rabs_le; lra|]. transitivity (Rabs (/ s - / m) * Rabs m); [|rewrite (Rabs_right m) by lra; reflexivity]. rewrite <- Rabs_mult. f_equal. field. lra. }
    eapply Rle_trans; [apply (sub_add_tri _ (vscale (/ s) v))|]. nra.
  Qed.
  Lemma normal_close : forall raw n, sizeable u eta raw -> fl_normal rnd raw n ->
    exists N, (N = hat raw \/ N = vopp (hat raw)) /\ unit N /\ vnorm (vsub n N) <= 20 * u.
  Proof.
    intros raw n SZ (m & s & F & S & ->). pose proof (normalize_close _ _ SZ F) as C. pose proof (hat_unit raw (proj1 SZ)) as HU. destruct S as [-> | ->].
    - exists (hat raw). split; [auto|]. split; auto. replace (vscale 1 m) with m by (destruct m; unfold vscale; cbn; f_equal; ring). auto.
    - exists (vopp (hat raw)). split; [auto|]. split; [apply opp_unit; auto|]. replace (vsub (vscale (-1) m) (vopp (hat raw))) with (vopp (vsub m (hat raw))); [rewrite vnorm_opp; auto|].
      destruct m, (hat raw). unfold vsub, vadd, vopp, vscale; cbn. f_equal; ring.
  Qed.
  Lemma close_norm : forall n N, unit N -> vnorm (vsub n N) <= 20 * u -> Rabs (vnorm n - 1) <= 20 * u.
  Proof. intros n N UN H. apply norm_at in H. rewrite (unit_norm N UN) in H. apply Rabs_le. lra. Qed.

  (** ** Mirrors *)
  Lemma reflect_close : forall v n N d, vnorm v <= 2 -> unit N -> vnorm (vsub n N) <= 20 * u -> fl_reflect rnd v n d ->
    vnorm (vsub d (vsub v (vscale (2 * vdot v N) N))) <= 256 * u.
  Proof.
    intros v n N d V UN CN (x & D & ->). pose proof (close_norm n N UN CN) as N0. destruct (unit_sqr u U0 U1 n N0) as (N1 & N2 & N3). pose proof (vnorm_nonneg v) as V0.
    pose proof (unit_norm N UN) as UN1. pose proof (dot_error rnd u eta U0 E0 RW U1 v n x D) as DX.
    assert (VN : vnorm v * vnorm n <= 2001 / 1000) by nra.
    assert (DX' : Rabs (x - vdot v n) <= 11 * u) by nra. clear DX.
    assert (VD : Rabs (vdot v n) <= 2001 / 1000) by (eapply Rle_trans; [apply dot_abs|auto]).
    assert (X : Rabs x <= 2002 / 1000). { replace x with (vdot v n + (x - vdot v n)) by ring. eapply Rle_trans; [apply abs_tri; [exact VD|exact DX']|]. nra. }
    pose proof (vround_close rnd u eta U0 E0 RW (vscale 2 n)) as M1. rewrite vnorm_scale, (Rabs_right 2) in M1 by lra.
    set (m := vround rnd (vscale 2 n)) in *.
    assert (M2 : vnorm (vsub m (vscale 2 n)) <= 3 * u) by nra. clear M1.
    assert (M3 : vnorm (vsub m (vscale 2 N)) <= 43 * u + / 10 * u).
    { eapply Rle_trans; [apply (sub_add_tri _ (vscale 2 n))|]. pose proof (vsub_scale 2 2 n N) as Q. rewrite Rminus_diag_eq, Rabs_R0, (Rabs_right 2) in Q by lra. lra. }
    assert (XN : Rabs (x - vdot v N) <= 51 * u).
    { replace (x - vdot v N) with ((x - vdot v n) + vdot v (vsub n N)) by (rewrite vdot_sub_r; ring). eapply Rle_trans; [apply abs_tri; [exact DX'|apply dot_abs]|].
      assert (vnorm v * vnorm (vsub n N) <= 2 * (20 * u)) by (apply Rmult_le_compat; auto; apply vnorm_nonneg). lra. }
    assert (VB : Rabs (vdot v N) <= 2). { eapply Rle_trans; [apply dot_abs|]. rewrite UN1. lra. }
    pose proof (vsub_scale x (vdot v N) m (vscale 2 N)) as P1. rewrite (vnorm_scale 2 N), (Rabs_right 2), UN1 in P1 by lra.
    assert (P2 : vnorm (vsub (vscale x m) (vscale (vdot v N) (vscale 2 N))) <= 190 * u).
    { eapply Rle_trans; [exact P1|]. assert (Rabs x * vnorm (vsub m (vscale 2 N)) <= 2002 / 1000 * (43 * u + / 10 * u)) by (apply Rmult_le_compat; auto; [apply Rabs_pos|apply vnorm_nonneg]). nra. }
    clear P1. apply (vround_at rnd u eta U0 E0 RW) in P2. rewrite !vnorm_scale, (Rabs_right 2), UN1 in P2 by lra.
    assert (P3 : vnorm (vsub (vround rnd (vscale x m)) (vscale (vdot v N) (vscale 2 N))) <= 196 * u) by (eapply Rle_trans; [exact P2|]; nra).
    clear P2. rewrite <- (vsub_sub v) in P3. apply (vround_at rnd u eta U0 E0 RW) in P3.
    replace (vscale (2 * vdot v N) N) with (vscale (vdot v N) (vscale 2 N)) by (destruct N; unfold vscale; cbn; f_equal; ring).
    set (w := vsub v (vscale (vdot v N) (vscale 2 N))) in *.
    assert (WN : vnorm w <= 7). { unfold w. eapply Rle_trans; [apply vnorm_sub|]. rewrite !vnorm_scale, (Rabs_right 2), UN1 by lra. lra. }
    eapply Rle_trans; [exact P3|]. nra.
  Qed.
  Lemma image_mirrored : forall e v N d, unit N -> vnorm (vsub d (vsub v (vscale (2 * vdot v N) N))) <= e -> nearly_mirrored e v d N.
  Proof.
    intros e v N d UN H. split.
    - replace (vdot d N + vdot v N) with (vdot (vsub d (vsub v (vscale (2 * vdot v N) N))) N).
      + eapply Rle_trans; [apply dot_abs|]. rewrite (unit_norm N UN). lra.
      + rewrite !vdot_sub_l. replace (vdot (vscale (2 * vdot v N) N) N) with (2 * vdot v N * vdot N N) by (unfold vdot, vscale; cbn; ring). rewrite UN. ring.
    - eapply Rle_trans; [|exact H]. eapply Rle_trans; [|apply (tangential_le _ N UN)]. apply Req_le. f_equal. rewrite !tangential_sub, tangential_scale. f_equal.
      assert (T : tangential N N = vscale 0 N). { unfold tangential. rewrite UN. destruct N; unfold vsub, vadd, vopp, vscale; cbn. f_equal; ring. }
      rewrite T. destruct (tangential v N), N. unfold vsub, vadd, vopp, vscale; cbn. f_equal; ring.
  Qed.
  Theorem reflect_lawful : forall v n N d, vnorm v <= 2 -> unit N -> vnorm (vsub n N) <= 20 * u -> fl_reflect rnd v n d -> nearly_mirrored (256 * u) v d N.
  Proof. intros. apply image_mirrored; auto. eapply reflect_close; eauto. Qed.

  (** ** Glasses *)
  Ltac by_rnd H := eapply Rle_trans; [apply (rnd_at rnd u eta U0 RW _ _ _ H)|].
  (** What is computed before the last normalisation, with the exact dot product [- c] of the two
      vectors it is computed from *)
  Lemma refracted_close : forall v1 nn c1 r, Rabs (vnorm v1 - 1) <= 20 * u -> Rabs (vnorm nn - 1) <= 20 * u ->
    Rabs (c1 - - vdot v1 nn) <= 6 * u -> Rabs r <= 4001 / 1000 ->
    let c := - vdot v1 nn in
    let T := 1 - r * r * (1 - c * c) in
    let radicand := rnd (1 - rnd (rnd (r * r) * rnd (1 - rnd (c1 * c1)))) in
    let w := if rltb 0 radicand
      then vround rnd (vadd (vround rnd (vscale r v1)) (vround rnd (vscale (rnd (rnd (r * c1) - rnd (sqrt (Rmax 0 radicand)))) nn)))
      else vround rnd (vadd v1 (vround rnd (vscale (rnd (2 * c1)) nn))) in
    if rltb 0 radicand
    then - (330 * u) <= T /\ exists s, - (2 * u) <= s /\ Rabs (r * c - s) <= 503 / 100 /\ Rabs (vnorm w - 1) <= 2200 * u /\
         vnorm (vsub w (vadd (vscale r v1) (vscale (r * c - s) nn))) <= 56 * u
    else T <= 330 * u /\ Rabs (vnorm w - 1) <= 400 * u /\ vnorm (vsub w (vadd v1 (vscale (2 * c) nn))) <= 25 * u.
  Proof.
    intros v1 nn c1 r HV HN HC HR c T radicand w. destruct (unit_sqr u U0 U1 v1 HV) as (V1 & V2 & V3). destruct (unit_sqr u U0 U1 nn HN) as (N1 & N2 & N3).
    assert (CB : Rabs c <= 1 + 41 * u).
    { unfold c. rewrite Rabs_Ropp. eapply Rle_trans; [apply dot_abs|]. nra. }
    fold c in HC. apply abs_le_both in CB. pose proof (abs_le_both _ _ HC) as HC'. pose proof (abs_le_both _ _ HR) as HR'.
    assert (C2 : 0 <= c * c <= 1 + 83 * u) by nra. assert (R2 : 0 <= r * r <= 16009 / 1000) by nra.
    assert (A0 : Rabs (c1 * c1 - c * c) <= 13 * u).
    { replace (c1 * c1 - c * c) with ((c1 - c) * (c1 + c)) by ring. rewrite Rabs_mult. apply Rle_trans with (6 * u * (201 / 100)); [|lra].
      apply Rmult_le_compat; try apply Rabs_pos; auto. apply Rabs_le. lra. }
    assert (A1 : Rabs (rnd (c1 * c1) - c * c) <= 15 * u). { by_rnd A0. rewrite (Rabs_right (c * c)) by lra. nra. }
    assert (A2 : Rabs (1 - rnd (c1 * c1) - (1 - c * c)) <= 15 * u) by (replace (1 - rnd (c1 * c1) - (1 - c * c)) with (- (rnd (c1 * c1) - c * c)) by ring; rewrite Rabs_Ropp; exact A1).
    assert (B1 : Rabs (1 - c * c) <= 1) by (apply Rabs_le; split; lra).
    assert (A3 : Rabs (rnd (1 - rnd (c1 * c1)) - (1 - c * c)) <= 17 * u). { by_rnd A2. nra. }
    set (a := rnd (1 - rnd (c1 * c1))) in *.
    assert (A4 : Rabs (rnd (r * r) - r * r) <= 17 * u). { eapply Rle_trans; [apply RW|]. rewrite (Rabs_right (r * r)) by lra. nra. }
    assert (AB : Rabs a <= 101 / 100). { replace a with ((1 - c * c) + (a - (1 - c * c))) by ring. eapply Rle_trans; [apply abs_tri; [exact B1|exact A3]|]. lra. }
    assert (A5 : Rabs (rnd (r * r) * a - r * r * (1 - c * c)) <= 290 * u).
    { replace (rnd (r * r) * a - r * r * (1 - c * c)) with ((rnd (r * r) - r * r) * a + r * r * (a - (1 - c * c))) by ring.
      eapply Rle_trans; [apply Rabs_triang|]. rewrite !Rabs_mult. rewrite <- (Rabs_mult r r), (Rabs_right (r * r)) by lra.
      assert (Rabs (rnd (r * r) - r * r) * Rabs a <= 17 * u * (101 / 100)) by (apply Rmult_le_compat; auto; apply Rabs_pos).
      assert (r * r * Rabs (a - (1 - c * c)) <= 16009 / 1000 * (17 * u)) by (apply Rmult_le_compat; try lra; apply Rabs_pos). lra. }
    assert (B2 : Rabs (r * r * (1 - c * c)) <= 16009 / 1000).
    { rewrite Rabs_mult, (Rabs_right (r * r)) by lra. pose proof (Rabs_pos (1 - c * c)). nra. }
    assert (A6 : Rabs (rnd (rnd (r * r) * a) - r * r * (1 - c * c)) <= 308 * u). { by_rnd A5. nra. }
    set (b := rnd (rnd (r * r) * a)) in *.
    assert (A7 : Rabs (1 - b - T) <= 308 * u) by (unfold T; replace (1 - b - (1 - r * r * (1 - c * c))) with (- (b - r * r * (1 - c * c))) by ring; rewrite Rabs_Ropp; exact A6).
    assert (B3 : Rabs T <= 1701 / 100). { unfold T. apply abs_le_both in B2. apply Rabs_le. lra. }
    assert (A8 : Rabs (radicand - T) <= 330 * u). { unfold radicand. by_rnd A7. nra. }
    clear A0 A1 A2 A3 A4 A5 A6 A7 AB B1. apply abs_le_both in A8.
    assert (T1 : T <= 101 / 100). { unfold T. assert (r * r * (c * c - 1) <= 16009 / 1000 * (83 * u)). { destruct (Rle_dec 0 (c * c - 1)); nra. } lra. }
    pose proof (abs_le_both _ _ V3) as V3'. pose proof (abs_le_both _ _ N3) as N3'.
    unfold w. destruct (rltb 0 radicand) eqn:RL.
    - apply XRFacts.rltb_true in RL. rewrite Rmax_right by lra. set (y := sqrt radicand). split; [lra|].
      assert (Y0 : 0 <= y) by apply sqrt_pos. assert (Y2 : y * y = radicand) by (apply sqrt_sqrt; lra). assert (Y1 : y <= 101 / 100) by nra.
      set (s := rnd y). assert (S1 : Rabs (s - y) <= 11 / 10 * u). { eapply Rle_trans; [apply RW|]. rewrite (Rabs_right y) by lra. nra. }
      apply abs_le_both in S1. assert (S2 : Rabs (s * s - T) <= 334 * u). { apply Rabs_le. nra. }
      assert (SB : Rabs s <= 102 / 100) by (apply Rabs_le; lra). exists s. split; [lra|].
      set (K := r * c - s).
      assert (RC : Rabs (r * c) <= 4002 / 1000). { rewrite Rabs_mult. apply Rle_trans with (4001 / 1000 * (1 + 41 * u)); [|lra]. apply Rmult_le_compat; try apply Rabs_pos; auto. apply Rabs_le. lra. }
      assert (KB : Rabs K <= 503 / 100). { unfold K, Rminus. eapply Rle_trans; [apply abs_tri; [exact RC|rewrite Rabs_Ropp; exact SB]|]. lra. }
      split; [exact KB|].
      assert (K0 : Rabs (r * c1 - r * c) <= 25 * u). { replace (r * c1 - r * c) with (r * (c1 - c)) by ring. rewrite Rabs_mult. apply Rle_trans with (4001 / 1000 * (6 * u)); [|lra]. apply Rmult_le_compat; try apply Rabs_pos; auto. }
      assert (K1 : Rabs (rnd (r * c1) - r * c) <= 30 * u). { by_rnd K0. nra. }
      assert (K2 : Rabs (rnd (r * c1) - s - K) <= 30 * u) by (unfold K; replace (rnd (r * c1) - s - (r * c - s)) with (rnd (r * c1) - r * c) by ring; exact K1).
      assert (K3 : Rabs (rnd (rnd (r * c1) - s) - K) <= 36 * u). { by_rnd K2. nra. }
      set (k := rnd (rnd (r * c1) - s)) in *.
      set (W := vadd (vscale r v1) (vscale K nn)).
      assert (WW : vdot W W = 1 + r * r * (vdot v1 v1 - 1) + (s * s - T) + K * K * (vdot nn nn - 1)).
      { unfold W. replace (vdot (vadd (vscale r v1) (vscale K nn)) (vadd (vscale r v1) (vscale K nn))) with (r * r * vdot v1 v1 + 2 * (r * K) * vdot v1 nn + K * K * vdot nn nn) by (unfold vdot, vadd, vscale; cbn; ring).
        replace (vdot v1 nn) with (- c) by (unfold c; ring). unfold T, K. ring. }
      assert (WB : Rabs (vdot W W - 1) <= 2100 * u).
      { rewrite WW. apply abs_le_both in S2. apply abs_le_both in KB. assert (K4 : 0 <= K * K <= 254 / 10) by nra. apply Rabs_le.
        assert (- (16009 / 1000 * (41 * u)) <= r * r * (vdot v1 v1 - 1) <= 16009 / 1000 * (41 * u)) by nra.
        assert (- (254 / 10 * (41 * u)) <= K * K * (vdot nn nn - 1) <= 254 / 10 * (41 * u)) by nra. lra. }
      assert (WN : Rabs (vnorm W - 1) <= 2100 * u). { rewrite <- vnorm_sqr in WB. apply abs_le_both in WB. pose proof (vnorm_nonneg W). apply Rabs_le. split; nra. }
      assert (L1 : vnorm (vsub (vround rnd (vscale r v1)) (vscale r v1)) <= 5 * u).
      { eapply Rle_trans; [apply (vround_close rnd u eta U0 E0 RW)|]. rewrite vnorm_scale. assert (Rabs r * vnorm v1 <= 4001 / 1000 * (101 / 100)) by (apply Rmult_le_compat; auto; [apply Rabs_pos|apply vnorm_nonneg|lra]). nra. }
      assert (L2 : vnorm (vsub (vscale k nn) (vscale K nn)) <= 37 * u).
      { eapply Rle_trans; [apply vsub_scale|]. rewrite vsub_refl. assert (Rabs (k - K) * vnorm nn <= 36 * u * (101 / 100)) by (apply Rmult_le_compat; auto; [apply Rabs_pos|apply vnorm_nonneg|lra]). lra. }
      apply (vround_at rnd u eta U0 E0 RW) in L2. rewrite vnorm_scale in L2.
      assert (L3 : vnorm (vsub (vround rnd (vscale k nn)) (vscale K nn)) <= 44 * u).
      { eapply Rle_trans; [exact L2|]. assert (Rabs K * vnorm nn <= 503 / 100 * (101 / 100)) by (apply Rmult_le_compat; auto; [apply Rabs_pos|apply vnorm_nonneg|lra]). nra. }
      assert (L4 : vnorm (vsub (vadd (vround rnd (vscale r v1)) (vround rnd (vscale k nn))) W) <= 49 * u) by (eapply Rle_trans; [apply vsub_add|]; lra).
      apply (vround_at rnd u eta U0 E0 RW) in L4. apply abs_le_both in WN. 
      match type of L4 with vnorm (vsub ?x _) <= _ => assert (L5 : vnorm (vsub x W) <= 56 * u) by (eapply Rle_trans; [exact L4|]; nra) end.
      split; [|exact L5]. apply norm_at in L5. apply Rabs_le. lra.
    - apply XRFacts.rltb_false in RL. split; [lra|]. set (W := vadd v1 (vscale (2 * c) nn)).
      assert (WW : vdot W W = 1 + (vdot v1 v1 - 1) + 4 * (c * c) * (vdot nn nn - 1)).
      { unfold W. replace (vdot (vadd v1 (vscale (2 * c) nn)) (vadd v1 (vscale (2 * c) nn))) with (vdot v1 v1 + 4 * c * vdot v1 nn + 4 * (c * c) * vdot nn nn) by (unfold vdot, vadd, vscale; cbn; ring).
        replace (vdot v1 nn) with (- c) by (unfold c; ring). ring. }
      assert (WB : Rabs (vdot W W - 1) <= 300 * u). { rewrite WW. apply Rabs_le. nra. }
      assert (WN : Rabs (vnorm W - 1) <= 300 * u). { rewrite <- vnorm_sqr in WB. apply abs_le_both in WB. pose proof (vnorm_nonneg W). apply Rabs_le. split; nra. }
      assert (K0 : Rabs (2 * c1 - 2 * c) <= 12 * u) by (apply Rabs_le; lra).
      assert (K1 : Rabs (rnd (2 * c1) - 2 * c) <= 15 * u). { by_rnd K0. assert (Rabs (2 * c) <= 201 / 100) by (apply Rabs_le; lra). nra. }
      assert (L2 : vnorm (vsub (vscale (rnd (2 * c1)) nn) (vscale (2 * c) nn)) <= 16 * u).
      { eapply Rle_trans; [apply vsub_scale|]. rewrite vsub_refl. assert (Rabs (rnd (2 * c1) - 2 * c) * vnorm nn <= 15 * u * (101 / 100)) by (apply Rmult_le_compat; auto; [apply Rabs_pos|apply vnorm_nonneg|lra]). lra. }
      apply (vround_at rnd u eta U0 E0 RW) in L2. rewrite vnorm_scale in L2.
      assert (L3 : vnorm (vsub (vround rnd (vscale (rnd (2 * c1)) nn)) (vscale (2 * c) nn)) <= 20 * u).
      { eapply Rle_trans; [exact L2|]. assert (Rabs (2 * c) <= 201 / 100) by (apply Rabs_le; lra). assert (Rabs (2 * c) * vnorm nn <= 201 / 100 * (101 / 100)) by (apply Rmult_le_compat; auto; [apply Rabs_pos|apply vnorm_nonneg|lra]). nra. }
      assert (L4 : vnorm (vsub (vadd v1 (vround rnd (vscale (rnd (2 * c1)) nn))) W) <= 20 * u) by (eapply Rle_trans; [apply vsub_add|]; rewrite vsub_refl; lra).
      apply (vround_at rnd u eta U0 E0 RW) in L4. apply abs_le_both in WN.
      match type of L4 with vnorm (vsub ?x _) <= _ => assert (L5 : vnorm (vsub x W) <= 25 * u) by (eapply Rle_trans; [exact L4|]; nra) end.
      split; [|exact L5]. apply norm_at in L5. apply Rabs_le. lra.
  Qed.
  (** normalising a vector of length almost 1 *)
  Lemma renormalised : forall w d e, 0 <= e -> e <= / 2 -> Rabs (vnorm w - 1) <= e -> fl_normalize rnd w d -> vnorm (vsub d w) <= e + 20 * u.
  Proof.
    intros w d e EP EH WN F. pose proof (abs_le_both _ _ WN) as WB. assert (SZ : sizeable u eta w).
    { unfold sizeable. rewrite <- vnorm_sqr. assert (/ 4 <= vnorm w * vnorm w) by nra. split; [lra|]. assert (u * / 4 <= u * (vnorm w * vnorm w)) by (apply Rmult_le_compat_l; lra). lra. }
    pose proof (normalize_close w d SZ F) as C. eapply Rle_trans; [apply (sub_add_tri _ (hat w))|].
    assert (H : vnorm (vsub (hat w) w) <= e); [|lra]. unfold hat. assert (W0 : 0 < vnorm w) by lra.
    pose proof (vsub_scale (/ vnorm w) 1 w w) as Q. rewrite vsub_refl in Q. replace (vscale 1 w) with w in Q by (destruct w; unfold vscale; cbn; f_equal; ring).
    eapply Rle_trans; [exact Q|]. replace (Rabs (/ vnorm w - 1) * vnorm w) with (Rabs (vnorm w - 1)); [lra|].
    transitivity (Rabs (/ vnorm w - 1) * Rabs (vnorm w)); [|rewrite (Rabs_right (vnorm w)) by lra; reflexivity].
    rewrite <- Rabs_mult. replace ((/ vnorm w - 1) * vnorm w) with (- (vnorm w - 1)) by (field; lra). rewrite Rabs_Ropp. reflexivity.
  Qed.
  Lemma interface_laws : forall v1 V nn M c1 r rho d, unit V -> unit M -> vnorm (vsub v1 V) <= 20 * u -> vnorm (vsub nn M) <= 20 * u ->
    Rabs (c1 - - vdot v1 nn) <= 6 * u -> 0 <= rho <= 4 -> Rabs (r - rho) <= 5 * u ->
    let radicand := rnd (1 - rnd (rnd (r * r) * rnd (1 - rnd (c1 * c1)))) in
    let w := if rltb 0 radicand
      then vround rnd (vadd (vround rnd (vscale r v1)) (vround rnd (vscale (rnd (rnd (r * c1) - rnd (sqrt (Rmax 0 radicand)))) nn)))
      else vround rnd (vadd v1 (vround rnd (vscale (rnd (2 * c1)) nn))) in
    fl_normalize rnd w d ->
    if rltb 0 radicand
    then rho * vnorm (tangential V M) <= 1 + 4096 * u /\ vnorm (vsub (vscale rho (tangential V M)) (tangential d M)) <= 4096 * u /\ vdot d M <= 4096 * u
    else 1 - 4096 * u <= rho * vnorm (tangential V M) /\ vnorm (vsub d (vsub V (vscale (2 * vdot V M) M))) <= 4096 * u.
  Proof.
    intros v1 V nn M c1 r rho d UV UM CV CM HC RH RR radicand w F.
    pose proof (close_norm _ _ UV CV) as HV. pose proof (close_norm _ _ UM CM) as HN. pose proof (unit_norm V UV) as V1. pose proof (unit_norm M UM) as M1.
    pose proof (abs_le_both _ _ RR) as RR'. assert (HR : Rabs r <= 4001 / 1000) by (apply Rabs_le; lra).
    pose proof (refracted_close v1 nn c1 r HV HN HC HR) as RC. cbv zeta in RC. fold radicand in RC. fold w in RC.
    pose proof (abs_le_both _ _ HV) as HV'. pose proof (abs_le_both _ _ HN) as HN'. pose proof (abs_le_both _ _ HR) as HR'.
    set (c := - vdot v1 nn) in *. set (C := - vdot V M).
    assert (CC : Rabs (c - C) <= 41 * u).
    { unfold c, C. replace (- vdot v1 nn - - vdot V M) with (- (vdot (vsub v1 V) nn + vdot V (vsub nn M))) by (rewrite vdot_sub_l, vdot_sub_r; ring).
      rewrite Rabs_Ropp. eapply Rle_trans; [apply abs_tri; apply dot_abs|]. rewrite V1. pose proof (vnorm_nonneg (vsub v1 V)).
      assert (vnorm (vsub v1 V) * vnorm nn <= 20 * u * (1 + 20 * u)) by (apply Rmult_le_compat; auto; [apply vnorm_nonneg|lra]). nra. }
    assert (CB : Rabs C <= 1) by (unfold C; rewrite Rabs_Ropp; eapply Rle_trans; [apply dot_abs|]; rewrite V1, M1; lra).
    pose proof (abs_le_both _ _ CB) as CB'. pose proof (abs_le_both _ _ CC) as CC'.
    assert (SS : vnorm (tangential V M) * vnorm (tangential V M) = 1 - C * C) by (rewrite tangential_square, UV by auto; unfold C; ring).
    pose proof (vnorm_nonneg (tangential V M)) as S0. set (S := vnorm (tangential V M)) in *. set (T := 1 - r * r * (1 - c * c)) in *.
    assert (SB : S <= 1) by nra.
    assert (TT : Rabs (T - (1 - rho * S * (rho * S))) <= 1400 * u).
    { replace (T - (1 - rho * S * (rho * S))) with (r * r * ((c - C) * (c + C)) + (rho - r) * (rho + r) * (S * S)) by (unfold T; rewrite SS; replace (rho * S * (rho * S)) with (rho * rho * (S * S)) by ring; rewrite SS; ring).
      assert (Q1 : Rabs ((c - C) * (c + C)) <= 83 * u). { rewrite Rabs_mult. apply Rle_trans with (41 * u * (2 + 41 * u)); [|nra]. apply Rmult_le_compat; try apply Rabs_pos; auto. apply Rabs_le. lra. }
      assert (Q2 : Rabs ((rho - r) * (rho + r)) <= 41 * u). { rewrite Rabs_mult. apply Rle_trans with (5 * u * (81 / 10)); [|lra]. apply Rmult_le_compat; try apply Rabs_pos; [rewrite Rabs_minus_sym; auto|apply Rabs_le; lra]. }
      eapply Rle_trans; [apply Rabs_triang|]. rewrite (Rabs_mult (r * r)), (Rabs_mult ((rho - r) * (rho + r))).
      assert (Q3 : Rabs (r * r) * Rabs ((c - C) * (c + C)) <= 1601 / 100 * (83 * u)) by (apply Rmult_le_compat; try apply Rabs_pos; auto; apply Rabs_le; nra).
      assert (Q4 : Rabs ((rho - r) * (rho + r)) * Rabs (S * S) <= 41 * u * 1) by (apply Rmult_le_compat; try apply Rabs_pos; auto; apply Rabs_le; nra). lra. }
    apply abs_le_both in TT. assert (RS0 : 0 <= rho * S) by (apply Rmult_le_pos; lra).
    destruct (rltb 0 radicand).
    - destruct RC as (TB & s & SP & KB & WN & WW). apply (renormalised w d (2200 * u) ltac:(lra) ltac:(lra) WN) in F. set (K := r * c - s) in *.
      assert (DW : vnorm (vsub d (vadd (vscale r v1) (vscale K nn))) <= 2276 * u) by (eapply Rle_trans; [apply (sub_add_tri _ w)|]; lra).
      assert (R1 : vnorm (vsub (vscale r v1) (vscale rho V)) <= 86 * u).
      { eapply Rle_trans; [apply vsub_scale|]. rewrite V1. assert (Rabs r * vnorm (vsub v1 V) <= 4001 / 1000 * (20 * u)) by (apply Rmult_le_compat; auto; [apply Rabs_pos|apply vnorm_nonneg]). lra. }
      assert (R2 : vnorm (vsub (vscale K nn) (vscale K M)) <= 101 * u).
      { eapply Rle_trans; [apply vsub_scale|]. rewrite Rminus_diag_eq, Rabs_R0 by auto. assert (Rabs K * vnorm (vsub nn M) <= 503 / 100 * (20 * u)) by (apply Rmult_le_compat; auto; [apply Rabs_pos|apply vnorm_nonneg]). lra. }
      assert (DX : vnorm (vsub d (vadd (vscale rho V) (vscale K M))) <= 2463 * u).
      { eapply Rle_trans; [apply (sub_add_tri _ (vadd (vscale r v1) (vscale K nn)))|]. pose proof (vsub_add (vscale r v1) (vscale K nn) (vscale rho V) (vscale K M)). lra. }
      split; [|split].
      + destruct (Rle_dec (rho * S) (1 + 4096 * u)); auto. exfalso. nra.
      + replace (vsub (vscale rho (tangential V M)) (tangential d M)) with (vopp (tangential (vsub d (vadd (vscale rho V) (vscale K M))) M)).
        * rewrite vnorm_opp. eapply Rle_trans; [apply (tangential_le _ M UM)|]. lra.
        * rewrite tangential_sub, tangential_add, !tangential_scale. assert (TM : tangential M M = vscale 0 M). { unfold tangential. rewrite UM. destruct M; unfold vsub, vadd, vopp, vscale; cbn. f_equal; ring. }
          rewrite TM. destruct (tangential d M), (tangential V M), M. unfold vsub, vadd, vopp, vscale; cbn. f_equal; ring.
      + replace (vdot d M) with (vdot (vsub d (vadd (vscale rho V) (vscale K M))) M + (K - rho * C)).
        2:{ rewrite vdot_sub_l. replace (vdot (vadd (vscale rho V) (vscale K M)) M) with (rho * vdot V M + K * vdot M M) by (unfold vdot, vadd, vscale; cbn; ring). rewrite UM. unfold C. ring. }
        pose proof (dot_abs (vsub d (vadd (vscale rho V) (vscale K M))) M) as DD. rewrite M1 in DD. apply abs_le_both in DD.
        assert (KK : K - rho * C = r * (c - C) + (r - rho) * C - s) by (unfold K; ring). rewrite KK.
        assert (r * (c - C) <= 4001 / 1000 * (41 * u)). { eapply Rle_trans; [apply Rle_abs|]. rewrite Rabs_mult. apply Rmult_le_compat; try apply Rabs_pos; auto. }
        assert ((r - rho) * C <= 5 * u * 1). { eapply Rle_trans; [apply Rle_abs|]. rewrite Rabs_mult. apply Rmult_le_compat; try apply Rabs_pos; auto. }
        lra.
    - destruct RC as (TB & WN & WW). apply (renormalised w d (400 * u) ltac:(lra) ltac:(lra) WN) in F.
      assert (DW : vnorm (vsub d (vadd v1 (vscale (2 * c) nn))) <= 445 * u) by (eapply Rle_trans; [apply (sub_add_tri _ w)|]; lra).
      assert (R2 : vnorm (vsub (vscale (2 * c) nn) (vscale (2 * C) M)) <= 130 * u).
      { eapply Rle_trans; [apply vsub_scale|]. rewrite M1. assert (Rabs (2 * c) * vnorm (vsub nn M) <= 201 / 100 * (20 * u)) by (apply Rmult_le_compat; auto; [apply Rabs_pos|apply vnorm_nonneg|apply Rabs_le; lra]).
        assert (Rabs (2 * c - 2 * C) <= 82 * u) by (apply Rabs_le; lra). lra. }
      split.
      + destruct (Rle_dec (1 - 4096 * u) (rho * S)) as [|NL]; auto. exfalso. assert (rho * S * (rho * S) <= (1 - 4096 * u) * (1 - 4096 * u)) by nra. nra.
      + eapply Rle_trans; [apply (sub_add_tri _ (vadd v1 (vscale (2 * c) nn)))|].
        replace (vsub V (vscale (2 * vdot V M) M)) with (vadd V (vscale (2 * C) M)) by (unfold C, vsub, vadd, vopp, vscale; destruct V, M; cbn; f_equal; ring).
        pose proof (vsub_add v1 (vscale (2 * c) nn) V (vscale (2 * C) M)). lra.
  Qed.
  Lemma next_ratio : forall n1 m, 0 < n1 -> 0 < m -> n1 <= 4 * m -> 0 <= n1 / m <= 4 /\ Rabs (rnd (n1 / m) - n1 / m) <= 5 * u.
  Proof.
    intros n1 m P1 PM Q. assert (B : 0 <= n1 / m <= 4).
    { split; [apply Rmult_le_pos; [lra|left; apply Rinv_0_lt_compat; auto]|]. apply (Rmult_le_reg_r m); auto. unfold Rdiv. rewrite Rmult_assoc, Rinv_l by lra. lra. }
    split; auto. eapply Rle_trans; [apply RW|]. rewrite (Rabs_right (n1 / m)) by lra. nra.
  Qed.
  Theorem refract_lawful : forall v n N n1 n2 n_global d index, sizeable u eta v -> unit N -> vnorm (vsub n N) <= 20 * u ->
    0 < n1 -> 0 < n2 -> 0 < n_global -> n1 <= 4 * n2 -> n1 <= 4 * n_global ->
    fl_refract rnd v n n1 n2 n_global d index -> nearly_lawful (4096 * u) v N n1 n2 n_global d index.
  Proof.
    intros v n N n1 n2 ng d index SZ UN CN P1 P2 P3 Q2 Q3 (v1 & cp & cn & NV & DP & DN & H & IX).
    pose proof (normalize_close _ _ SZ NV) as CV. pose proof (hat_unit v (proj1 SZ)) as UV. set (V := hat v) in *.
    pose proof (close_norm _ _ UV CV) as HV. pose proof (close_norm _ _ UN CN) as HN. apply abs_le_both in HV. apply abs_le_both in HN.
    pose proof (unit_norm V UV) as V1. pose proof (unit_norm N UN) as N1.
    pose proof (dot_error rnd u eta U0 E0 RW U1 _ _ _ DP) as EP. pose proof (dot_error rnd u eta U0 E0 RW U1 _ _ _ DN) as EN. rewrite vnorm_opp in EN.
    assert (VN : vnorm v1 * vnorm n <= 101 / 100). { pose proof (vnorm_nonneg v1). pose proof (vnorm_nonneg n). nra. }
    assert (VC : Rabs (vdot v1 n - vdot V N) <= 41 * u).
    { replace (vdot v1 n - vdot V N) with (vdot (vsub v1 V) n + vdot V (vsub n N)) by (rewrite vdot_sub_l, vdot_sub_r; ring).
      eapply Rle_trans; [apply abs_tri; apply dot_abs|]. rewrite V1.
      assert (vnorm (vsub v1 V) * vnorm n <= 20 * u * (1 + 20 * u)) by (apply Rmult_le_compat; auto; try apply vnorm_nonneg; lra). nra. }
    apply abs_le_both in VC. assert (EP' : Rabs (cp - vdot v1 n) <= 6 * u) by nra. pose proof (abs_le_both _ _ EP') as EP2.
    exists (rltb 0 cp). unfold nearly_lawful. destruct (rltb 0 cp) eqn:RL; cbv zeta in H, IX |- *.
    - apply XRFacts.rltb_true in RL. split; [fold V; lra|]. destruct (next_ratio n1 ng P1 P3 Q3) as (RB & RE).
      assert (COM : vnorm (vsub (vopp n) (vopp N)) <= 20 * u). { replace (vsub (vopp n) (vopp N)) with (vopp (vsub n N)) by (unfold vsub, vadd, vopp, vscale; destruct n, N; cbn; f_equal; ring). rewrite vnorm_opp. auto. }
      assert (HC : Rabs (cp - - vdot v1 (vopp n)) <= 6 * u) by (replace (- vdot v1 (vopp n)) with (vdot v1 n) by (unfold vdot, vopp, vscale; cbn; ring); auto).
      pose proof (interface_laws v1 V (vopp n) (vopp N) cp _ _ d UV (opp_unit N UN) CV COM HC RB RE H) as L. cbv zeta in L. rewrite !tangential_turn in L.
      destruct (rltb 0 _).
      + left. split; [exact IX|]. destruct L as (L1 & L2 & L3). fold V. split; [|split].
        * replace (n1 * vnorm (tangential V N)) with (n1 / ng * vnorm (tangential V N) * ng) by (field; lra). apply Rmult_le_compat_r; lra.
        * replace (vsub (vscale n1 (tangential V N)) (vscale ng (tangential d N))) with (vscale ng (vsub (vscale (n1 / ng) (tangential V N)) (tangential d N))).
          -- rewrite vnorm_scale, (Rabs_right ng), Rmult_comm by lra. apply Rmult_le_compat_r; lra.
          -- destruct (tangential V N), (tangential d N). unfold vsub, vadd, vopp, vscale; cbn. f_equal; field; lra.
        * replace (vdot d (vopp N)) with (- vdot d N) in L3 by (unfold vdot, vopp, vscale; cbn; ring). lra.
      + right. split; [exact IX|]. destruct L as (L1 & L2). fold V. split.
        * replace (n1 * vnorm (tangential V N)) with (n1 / ng * vnorm (tangential V N) * ng) by (field; lra). apply Rmult_le_compat_r; lra.
        * apply image_mirrored; auto. replace (vscale (2 * vdot V N) N) with (vscale (2 * vdot V (vopp N)) (vopp N)); auto. unfold vdot, vopp, vscale; destruct V, N; cbn; f_equal; ring.
    - apply XRFacts.rltb_false in RL. split; [fold V; lra|]. destruct (next_ratio n1 n2 P1 P2 Q2) as (RB & RE).
      assert (HC : Rabs (cn - - vdot v1 n) <= 6 * u) by (replace (- vdot v1 n) with (vdot v1 (vopp n)) by (unfold vdot, vopp, vscale; cbn; ring); nra).
      pose proof (interface_laws v1 V n N cn _ _ d UV UN CV CN HC RB RE H) as L. cbv zeta in L.
      destruct (rltb 0 _).
      + left. split; [exact IX|]. destruct L as (L1 & L2 & L3). fold V. split; [|split].
        * replace (n1 * vnorm (tangential V N)) with (n1 / n2 * vnorm (tangential V N) * n2) by (field; lra). apply Rmult_le_compat_r; lra.
        * replace (vsub (vscale n1 (tangential V N)) (vscale n2 (tangential d N))) with (vscale n2 (vsub (vscale (n1 / n2) (tangential V N)) (tangential d N))).
          -- rewrite vnorm_scale, (Rabs_right n2), Rmult_comm by lra. apply Rmult_le_compat_r; lra.
          -- destruct (tangential V N), (tangential d N). unfold vsub, vadd, vopp, vscale; cbn. f_equal; field; lra.
        * lra.
      + right. split; [exact IX|]. destruct L as (L1 & L2). fold V. split.
        * replace (n1 * vnorm (tangential V N)) with (n1 / n2 * vnorm (tangential V N) * n2) by (field; lra). apply Rmult_le_compat_r; lra.
        * apply image_mirrored; auto.
  Qed.
End Laws.
