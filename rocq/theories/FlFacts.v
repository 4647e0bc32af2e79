(** * FlFacts: error bounds for rounded vector operations *)
From Coq Require Import Reals List Bool ZArith Permutation Lra Lia Psatz.
Import ListNotations.
From Verif Require Import XR Lin Fl.
Open Scope R_scope.

(** ** The Euclidean norm *)
Lemma vdot_nonneg : forall v, 0 <= vdot v v.
Proof. intro v. unfold vdot. pose proof (Rle_0_sqr (vx v)); pose proof (Rle_0_sqr (vy v)); pose proof (Rle_0_sqr (vz v)); pose proof (Rle_0_sqr (vw v)). unfold Rsqr in *. lra. Qed.
Lemma vnorm_nonneg : forall v, 0 <= vnorm v.
Proof. intro v. apply sqrt_pos. Qed.
Lemma vnorm_sqr : forall v, vnorm v * vnorm v = vdot v v.
Proof. intro v. apply sqrt_sqrt. apply vdot_nonneg. Qed.
Lemma le_of_sqr : forall x y, 0 <= y -> x * x <= y * y -> x <= y.
Proof. intros x y Y H. destruct (Rle_dec x y); auto. exfalso. nra. Qed.
Lemma cauchy4 : forall v w, vdot v w * vdot v w <= vdot v v * vdot w w.
Proof.
  intros [a b c d] [x y z t]. unfold vdot. cbn.
  assert (E : (a * a + b * b + c * c + d * d) * (x * x + y * y + z * z + t * t) - (a * x + b * y + c * z + d * t) * (a * x + b * y + c * z + d * t) =
    Rsqr (a * y - b * x) + Rsqr (a * z - c * x) + Rsqr (a * t - d * x) + Rsqr (b * z - c * y) + Rsqr (b * t - d * y) + Rsqr (c * t - d * z)) by (unfold Rsqr; ring).
  pose proof (Rle_0_sqr (a * y - b * x)); pose proof (Rle_0_sqr (a * z - c * x)); pose proof (Rle_0_sqr (a * t - d * x));
  pose proof (Rle_0_sqr (b * z - c * y)); pose proof (Rle_0_sqr (b * t - d * y)); pose proof (Rle_0_sqr (c * t - d * z)). lra.
Qed.
Lemma vdot_le : forall v w, vdot v w <= vnorm v * vnorm w.
Proof.
  intros v w. apply le_of_sqr; [apply Rmult_le_pos; apply vnorm_nonneg|].
  replace (vnorm v * vnorm w * (vnorm v * vnorm w)) with ((vnorm v * vnorm v) * (vnorm w * vnorm w)) by ring. rewrite !vnorm_sqr. apply cauchy4.
Qed.
Lemma vnorm_add : forall v w, vnorm (vadd v w) <= vnorm v + vnorm w.
Proof.
  intros v w. pose proof (vnorm_nonneg v); pose proof (vnorm_nonneg w). apply le_of_sqr; [lra|]. rewrite vnorm_sqr.
  replace (vdot (vadd v w) (vadd v w)) with (vdot v v + 2 * vdot v w + vdot w w) by (unfold vdot, vadd; cbn; ring).
  rewrite <- !vnorm_sqr. pose proof (vdot_le v w). nra.
Qed.
Lemma vnorm_scale : forall k v, vnorm (vscale k v) = Rabs k * vnorm v.
Proof.
  intros k v. unfold vnorm. replace (vdot (vscale k v) (vscale k v)) with (k * k * vdot v v) by (unfold vdot, vscale; cbn; ring).
  rewrite sqrt_mult; [|nra|apply vdot_nonneg]. f_equal. rewrite <- (sqrt_Rsqr_abs k). reflexivity.
Qed.
Lemma vnorm_opp : forall v, vnorm (vopp v) = vnorm v.
Proof. intro v. unfold vopp. rewrite vnorm_scale. rewrite Rabs_left by lra. ring. Qed.
Lemma vnorm_sub : forall v w, vnorm (vsub v w) <= vnorm v + vnorm w.
Proof. intros v w. unfold vsub. eapply Rle_trans; [apply vnorm_add|]. rewrite vnorm_opp. lra. Qed.
Lemma vnorm_close : forall v w, Rabs (vnorm v - vnorm w) <= vnorm (vsub v w).
Proof.
  intros v w. apply Rabs_le. split.
  - assert (E : w = vsub v (vsub v w)) by (destruct v, w; unfold vsub, vadd, vopp, vscale; cbn; f_equal; ring).
    pose proof (vnorm_sub v (vsub v w)). rewrite <- E in H. lra.
  - assert (E : v = vadd w (vsub v w)) by (destruct v, w; unfold vsub, vadd, vopp, vscale; cbn; f_equal; ring).
    pose proof (vnorm_add w (vsub v w)). rewrite <- E in H. lra.
Qed.
Definition vabs (v : v4) : v4 := V4 (Rabs (vx v)) (Rabs (vy v)) (Rabs (vz v)) (Rabs (vw v)).
Lemma vnorm_abs : forall v, vnorm (vabs v) = vnorm v.
Proof.
  intro v. unfold vnorm. f_equal. unfold vdot, vabs; cbn.
  assert (E : forall x, Rabs x * Rabs x = x * x) by (intro x; rewrite <- Rabs_mult; apply Rabs_right; nra). rewrite !E. reflexivity.
Qed.
(** entries bounded by those of another vector, and a little more *)
Lemma vnorm_entries : forall e x a b, 0 <= a -> 0 <= b ->
  Rabs (vx e) <= a * Rabs (vx x) + b -> Rabs (vy e) <= a * Rabs (vy x) + b -> Rabs (vz e) <= a * Rabs (vz x) + b -> Rabs (vw e) <= a * Rabs (vw x) + b ->
  vnorm e <= a * vnorm x + 2 * b.
Proof.
  intros e x a b A B H1 H2 H3 H4.
  assert (M : forall p q, (0 <= vx p <= vx q) -> (0 <= vy p <= vy q) -> (0 <= vz p <= vz q) -> (0 <= vw p <= vw q) -> vnorm p <= vnorm q).
  { intros p q P1 P2 P3 P4. unfold vnorm. apply sqrt_le_1_alt. unfold vdot. nra. }
  rewrite <- (vnorm_abs e). eapply Rle_trans; [apply (M _ (vadd (vscale a (vabs x)) (vscale b (V4 1 1 1 1))))|]; try (cbn; split; [apply Rabs_pos|lra]).
  eapply Rle_trans; [apply vnorm_add|]. rewrite !vnorm_scale, vnorm_abs, !Rabs_right by lra.
  assert (E : vnorm (V4 1 1 1 1) = 2). { unfold vnorm, vdot; cbn. replace (1 * 1 + 1 * 1 + 1 * 1 + 1 * 1) with (2 * 2) by ring. apply sqrt_square. lra. }
  rewrite E. lra.
Qed.

Lemma abs_tri : forall x y a b, Rabs x <= a -> Rabs y <= b -> Rabs (x + y) <= a + b.
Proof. intros. eapply Rle_trans; [apply Rabs_triang|]. lra. Qed.

(** ** Sums of products *)
Definition rsum (l : list (R * R)) : R := fold_right (fun q s => fst q * snd q + s) 0 l.
Definition asum (l : list (R * R)) : R := fold_right (fun q s => Rabs (fst q * snd q) + s) 0 l.
Lemma rsum_app : forall a b, rsum (a ++ b) = rsum a + rsum b.
Proof. induction a as [|q a IH]; intro b; simpl; [ring|]. rewrite IH. ring. Qed.
Lemma asum_app : forall a b, asum (a ++ b) = asum a + asum b.
Proof. induction a as [|q a IH]; intro b; simpl; [ring|]. rewrite IH. ring. Qed.
Lemma rsum_perm : forall a b, Permutation a b -> rsum a = rsum b.
Proof. induction 1; simpl; lra. Qed.
Lemma asum_perm : forall a b, Permutation a b -> asum a = asum b.
Proof. induction 1; simpl; lra. Qed.
Lemma asum_nonneg : forall l, 0 <= asum l.
Proof. induction l as [|q l IH]; simpl; [lra|]. pose proof (Rabs_pos (fst q * snd q)). lra. Qed.
Lemma rsum_abs : forall l, Rabs (rsum l) <= asum l.
Proof. induction l as [|q l IH]; simpl; [rewrite Rabs_R0; lra|]. apply abs_tri; auto. apply Rle_refl. Qed.
Lemma rsum_pairs : forall v w, rsum (pairs v w) = vdot v w.
Proof. intros. unfold pairs, coords, vdot. simpl. ring. Qed.
Lemma asum_pairs : forall v w, asum (pairs v w) <= vnorm v * vnorm w.
Proof.
  intros. rewrite <- (vnorm_abs v), <- (vnorm_abs w). eapply Rle_trans; [|apply vdot_le]. unfold pairs, coords, vdot, vabs. simpl. rewrite !Rabs_mult. lra.
Qed.

Section Rounding.
  Variable rnd : R -> R.
  Variables u eta : R.
  Hypothesis U0 : 0 <= u.
  Hypothesis E0 : 0 <= eta.
  Hypothesis RW : forall x, Rabs (rnd x - x) <= u * Rabs x + eta.

  Lemma rnd_at : forall x y e, Rabs (x - y) <= e -> Rabs (rnd x - y) <= e + u * (Rabs y + e) + eta.
  Proof.
    intros x y e H. pose proof (RW x) as H1. assert (X : Rabs x <= Rabs y + e). { replace x with (y + (x - y)) by ring. apply abs_tri; auto. apply Rle_refl. }
    replace (rnd x - y) with ((rnd x - x) + (x - y)) by ring. eapply Rle_trans; [apply Rabs_triang|]. pose proof (Rabs_pos x). nra.
  Qed.
  Lemma vround_close : forall v, vnorm (vsub (vround rnd v) v) <= u * vnorm v + 2 * eta.
  Proof.
    intro v. apply vnorm_entries; auto; unfold vsub, vadd, vopp, vscale, vround; cbn.
    all: match goal with |- Rabs (rnd ?x + -1 * ?x) <= _ => replace (rnd x + -1 * x) with (rnd x - x) by ring; apply RW end.
  Qed.
  Lemma vround_at : forall v w e, vnorm (vsub v w) <= e -> vnorm (vsub (vround rnd v) w) <= e + u * (vnorm w + e) + 2 * eta.
  Proof.
    intros v w e H. replace (vsub (vround rnd v) w) with (vadd (vsub (vround rnd v) v) (vsub v w)) by (unfold vsub, vadd, vopp, vscale; destruct v, w; cbn; f_equal; ring).
    eapply Rle_trans; [apply vnorm_add|]. pose proof (vround_close v). assert (V : vnorm v <= vnorm w + e).
    { pose proof (vnorm_close v w). apply Rabs_def2b in H1 || idtac. pose proof (Rle_abs (vnorm v - vnorm w)). lra. }
    nra.
  Qed.

  (** the error of a sum of n products *)
  Definition gam (n : nat) : R := (1 + u) ^ n.
  Lemma gam_ge1 : forall n, 1 <= gam n.
  Proof. intro n. unfold gam. apply pow_R1_Rle. lra. Qed.
  Lemma gam_S : forall n, gam (S n) = (1 + u) * gam n.
  Proof. reflexivity. Qed.
  Lemma gam_mono : forall m n, (m <= n)%nat -> gam m <= gam n.
  Proof. intros. unfold gam. apply Rle_pow; [lra|auto]. Qed.
  Lemma rdot_pos : forall l x, rdot rnd l x -> (1 <= length l)%nat.
  Proof.
    induction 1 as [a b|l1 l2 l x y P _ I1 _ I2|l l' a b x P _ IH]; simpl; auto; apply Permutation_length in P; rewrite P; [rewrite app_length|simpl]; lia.
  Qed.
  Lemma rdot_error : forall l x, rdot rnd l x -> forall n, length l = n ->
    Rabs (x - rsum l) <= (gam n - 1) * asum l + (2 * INR n - 1) * gam n * eta.
  Proof.
    induction 1 as [a b|l1 l2 l x y P H1 I1 H2 I2|l l' a b x P H IH]; intros n N.
    - simpl in N. subst n. unfold gam. simpl. rewrite !Rplus_0_r. pose proof (RW (a * b)). 
      replace ((1 + u) * 1 - 1) with u by ring. replace ((2 * 1 - 1) * ((1 + u) * 1) * eta) with (eta + u * eta) by ring. nra.
    - pose proof (rdot_pos _ _ H1) as L1. pose proof (rdot_pos _ _ H2) as L2. rewrite (rsum_perm _ _ P), (asum_perm _ _ P), rsum_app, asum_app.
      assert (LN : (length l1 + length l2 = n)%nat) by (rewrite <- N, (Permutation_length P), app_length; auto).
      specialize (I1 _ eq_refl). specialize (I2 _ eq_refl). set (n1 := length l1) in *. set (n2 := length l2) in *. destruct n as [|m]; [lia|].
      pose proof (asum_nonneg l1) as A1. pose proof (asum_nonneg l2) as A2. pose proof (rsum_abs l1) as B1. pose proof (rsum_abs l2) as B2.
      set (a1 := asum l1) in *. set (a2 := asum l2) in *.
      assert (G1 : gam n1 <= gam m) by (apply gam_mono; lia). assert (G2 : gam n2 <= gam m) by (apply gam_mono; lia).
      assert (IN : INR n1 + INR n2 = INR (S m)) by (rewrite <- plus_INR; f_equal; lia).
      assert (P1 : 1 <= INR n1) by (change 1 with (INR 1); apply le_INR; lia). assert (P2 : 1 <= INR n2) by (change 1 with (INR 1); apply le_INR; lia).
      pose proof (gam_ge1 m) as GM.
      assert (ER : Rabs (x + y - (rsum l1 + rsum l2)) <= (gam m - 1) * (a1 + a2) + (2 * INR (S m) - 2) * gam m * eta).
      { replace (x + y - (rsum l1 + rsum l2)) with ((x - rsum l1) + (y - rsum l2)) by ring. eapply Rle_trans; [apply abs_tri; [exact I1|exact I2]|].
        assert (X1 : (gam n1 - 1) * a1 <= (gam m - 1) * a1) by (apply Rmult_le_compat_r; lra).
        assert (X2 : (gam n2 - 1) * a2 <= (gam m - 1) * a2) by (apply Rmult_le_compat_r; lra).
        assert (X3 : (2 * INR n1 - 1) * gam n1 * eta <= (2 * INR n1 - 1) * gam m * eta) by (apply Rmult_le_compat_r; [lra|apply Rmult_le_compat_l; lra]).
        assert (X4 : (2 * INR n2 - 1) * gam n2 * eta <= (2 * INR n2 - 1) * gam m * eta) by (apply Rmult_le_compat_r; [lra|apply Rmult_le_compat_l; lra]).
        replace ((2 * INR (S m) - 2) * gam m * eta) with ((2 * INR n1 - 1) * gam m * eta + (2 * INR n2 - 1) * gam m * eta) by (rewrite <- IN; ring). lra. }
      eapply Rle_trans; [apply (rnd_at _ _ _ ER)|].
      assert (SA : Rabs (rsum l1 + rsum l2) <= a1 + a2) by (apply abs_tri; auto). rewrite gam_S.
      set (g := gam m) in *. set (N1 := INR (S m)) in *. set (D := (2 * N1 - 2) * g * eta).
      replace (((1 + u) * g - 1) * (a1 + a2) + (2 * N1 - 1) * ((1 + u) * g) * eta) with
        ((1 + u) * ((g - 1) * (a1 + a2) + D) + u * (a1 + a2) + (1 + u) * g * eta) by (unfold D; ring).
      assert (EG : eta <= (1 + u) * g * eta). { assert (1 <= (1 + u) * g) by nra. nra. } nra.
    - rewrite (rsum_perm _ _ P), (asum_perm _ _ P). cbn [rsum asum fold_right fst snd]. fold (rsum l') (asum l').
      pose proof (rdot_pos _ _ H) as L1. pose proof (Permutation_length P) as LN. simpl in LN. rewrite N in LN. destruct n as [|m]; [lia|]. injection LN as LN.
      specialize (IH m (eq_sym LN)). pose proof (gam_ge1 m) as GM. pose proof (asum_nonneg l') as A1. pose proof (rsum_abs l') as B1.
      assert (P1 : 1 <= INR m) by (change 1 with (INR 1); apply le_INR; lia).
      assert (ER : Rabs (a * b + x - (a * b + rsum l')) <= (gam m - 1) * asum l' + (2 * INR m - 1) * gam m * eta) by (replace (a * b + x - (a * b + rsum l')) with (x - rsum l') by ring; exact IH).
      eapply Rle_trans; [apply (rnd_at _ _ _ ER)|]. assert (SA : Rabs (a * b + rsum l') <= Rabs (a * b) + asum l') by (apply abs_tri; [apply Rle_refl|auto]).
      rewrite gam_S, S_INR. set (g := gam m) in *. set (N1 := INR m) in *. set (D := (2 * N1 - 1) * g * eta). set (p := Rabs (a * b)) in *. assert (PP : 0 <= p) by apply Rabs_pos.
      replace (((1 + u) * g - 1) * (p + asum l') + (2 * (N1 + 1) - 1) * ((1 + u) * g) * eta) with
        ((1 + u) * ((g - 1) * asum l' + D) + (1 + u) * (g - 1) * p + u * (p + asum l') + 2 * ((1 + u) * g * eta)) by (unfold D; ring).
      assert (EG : eta <= (1 + u) * g * eta). { assert (1 <= (1 + u) * g) by nra. nra. }
      assert (0 <= (1 + u) * (g - 1) * p) by (apply Rmult_le_pos; [apply Rmult_le_pos; lra|auto]). nra.
  Qed.

  Hypothesis U1 : u <= / 1000000.
  Lemma gam4 : gam 4 <= 1 + 5 * u.
  Proof. unfold gam. simpl. nra. Qed.
  Lemma dot_error : forall v w x, rdot rnd (pairs v w) x -> Rabs (x - vdot v w) <= 5 * u * (vnorm v * vnorm w) + 8 * eta.
  Proof.
    intros v w x H. pose proof (rdot_error _ _ H 4%nat eq_refl) as E. rewrite rsum_pairs in E. pose proof (asum_pairs v w) as A. pose proof (asum_nonneg (pairs v w)) as A0.
    pose proof gam4 as G. pose proof (gam_ge1 4) as G1. replace (2 * INR 4 - 1) with 7 in E by (simpl; ring).
    eapply Rle_trans; [exact E|]. apply Rplus_le_compat.
    - apply Rmult_le_compat; lra.
    - apply Rmult_le_compat_r; lra.
  Qed.
End Rounding.
