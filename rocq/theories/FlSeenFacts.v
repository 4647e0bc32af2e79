(** * FlSeenFacts: computed object coordinates of world points *)
From Coq Require Import Reals List Bool Lra Lia Psatz.
Import ListNotations.
From Verif Require Import XR XRFacts Lin LinFacts Fl FlHits SpecFl FlFacts MotionFacts SpecFlHits SpecFlSeen.
Open Scope R_scope.

Ltac vr := apply v4_eq; vsimp; cbn [vx vy vz vw]; ring.
Lemma vsub_w : forall v w, vw (vsub v w) = vw v - vw w. Proof. intros [? ? ? ?] [? ? ? ?]. vsimp. ring. Qed.
Lemma affine_w : forall m v, row3 m = V4 0 0 0 1 -> vw (mapply m v) = vw v.
Proof. intros m [x y z w] R. unfold mapply. cbn [vw]. rewrite R. unfold vdot. cbn [vx vy vz vw]. ring. Qed.
Lemma split_point : forall x, x = vadd (point 0 0 0) (vsub x (point 0 0 0)).
Proof. intros [x y z w]. vr. Qed.
Lemma norm3 : forall a b c, vnorm (vsub a c) <= vnorm (vsub a b) + vnorm (vsub b c).
Proof. intros a b c. replace (vsub a c) with (vadd (vsub a b) (vsub b c)); [apply vnorm_add|]. destruct a, b, c. vr. Qed.
Lemma norm_sym : forall a b, vnorm (vsub a b) = vnorm (vsub b a).
Proof. intros a b. rewrite <- (vnorm_opp (vsub b a)). f_equal. destruct a, b. vr. Qed.
Lemma add_sub4 : forall a b c d, vsub (vadd a b) (vadd c d) = vadd (vsub a c) (vsub b d).
Proof. intros [? ? ? ?] [? ? ? ?] [? ? ? ?] [? ? ? ?]. vr. Qed.

Lemma entries_of : forall m,
  (vx (mapply m (vector 1 0 0)) = vx (row0 m) /\ vx (mapply m (vector 0 1 0)) = vy (row0 m) /\ vx (mapply m (vector 0 0 1)) = vz (row0 m) /\ vx (vsub (mapply m (point 0 0 0)) (point 0 0 0)) = vw (row0 m)) /\
  (vy (mapply m (vector 1 0 0)) = vx (row1 m) /\ vy (mapply m (vector 0 1 0)) = vy (row1 m) /\ vy (mapply m (vector 0 0 1)) = vz (row1 m) /\ vy (vsub (mapply m (point 0 0 0)) (point 0 0 0)) = vw (row1 m)) /\
  (vz (mapply m (vector 1 0 0)) = vx (row2 m) /\ vz (mapply m (vector 0 1 0)) = vy (row2 m) /\ vz (mapply m (vector 0 0 1)) = vz (row2 m) /\ vz (vsub (mapply m (point 0 0 0)) (point 0 0 0)) = vw (row2 m)).
Proof.
  intros [[a0 a1 a2 a3] [b0 b1 b2 b3] [c0 c1 c2 c3] [d0 d1 d2 d3]].
  repeat split; vsimp; cbn; ring.
Qed.
Section Seen.
  Variables (a b rho P : R) (W M X : mat).
  Hypothesis A : 0 <= a <= / 100.
  Hypothesis B : 0 <= b <= / 100.
  Hypothesis RHO : 0 <= rho <= / 100.
  Hypothesis PP : 0 <= P.
  Hypothesis NP : near_placement a b P W M.
  Hypothesis IV : inverts rho P W X.

  Lemma world_norm : forall v, vw v = 0 -> (1 - a) * vnorm v <= vnorm (mapply W v) <= (1 + a) * vnorm v.
  Proof.
    intros v V. destruct NP as (_ & _ & N & D & _). specialize (N v V). specialize (D v V). pose proof (vnorm_close (mapply W v) (mapply M v)) as C. rewrite N in C.
    assert (X0 : Rabs (vnorm (mapply W v) - vnorm v) <= a * vnorm v) by lra. unfold Rabs in X0. destruct Rcase_abs in X0; lra.
  Qed.
  Lemma inverse_w : forall v, vw (mapply X v) = vw v.
  Proof. intro v. apply affine_w. apply IV. Qed.
  Lemma inverse_norm : forall v, vw v = 0 -> 9 / 10 * vnorm v <= vnorm (mapply X v) <= 11 / 10 * vnorm v.
  Proof.
    intros v V. destruct IV as (_ & D & _). specialize (D v V). pose proof (world_norm (mapply X v) ltac:(rewrite inverse_w; exact V)) as (L & U).
    pose proof (vnorm_close (mapply W (mapply X v)) v) as C. pose proof (vnorm_nonneg v). pose proof (vnorm_nonneg (mapply X v)).
    assert (C' : Rabs (vnorm (mapply W (mapply X v)) - vnorm v) <= rho * vnorm v) by lra.
    assert (LH : - (rho * vnorm v) <= vnorm (mapply W (mapply X v)) - vnorm v <= rho * vnorm v) by (unfold Rabs in C'; destruct Rcase_abs in C'; lra).
    assert (rho * vnorm v <= / 100 * vnorm v) by (apply Rmult_le_compat_r; lra). assert (a * vnorm (mapply X v) <= / 100 * vnorm (mapply X v)) by (apply Rmult_le_compat_r; lra). lra.
  Qed.
  Lemma inverse_place : from_origin (mapply X (point 0 0 0)) <= 6 / 5 * P.
  Proof.
    unfold from_origin. set (q := vsub (mapply X (point 0 0 0)) (point 0 0 0)). destruct NP as (_ & _ & _ & _ & D & H). destruct IV as (_ & _ & E).
    assert (Q : vw q = 0) by (unfold q; rewrite vsub_w, inverse_w; cbn; ring). pose proof (world_norm q Q) as (L & _).
    rewrite (split_point (mapply X (point 0 0 0))) in E. fold q in E. rewrite mapply_add in E.
    assert (N : vnorm (mapply W q) <= vnorm (vsub (vadd (mapply W (point 0 0 0)) (mapply W q)) (point 0 0 0)) + vnorm (vsub (mapply W (point 0 0 0)) (point 0 0 0))).
    { replace (mapply W q) with (vsub (vsub (vadd (mapply W (point 0 0 0)) (mapply W q)) (point 0 0 0)) (vsub (mapply W (point 0 0 0)) (point 0 0 0))) at 1; [apply vnorm_sub|].
      generalize (mapply W (point 0 0 0)) (mapply W q) (point 0 0 0). intros [? ? ? ?] [? ? ? ?] [? ? ? ?]. vr. }
    pose proof (norm3 (mapply W (point 0 0 0)) (mapply M (point 0 0 0)) (point 0 0 0)) as T. pose proof (vnorm_nonneg q).
    assert (rho * P <= / 100 * P) by (apply Rmult_le_compat_r; lra). assert (b * P <= / 100 * P) by (apply Rmult_le_compat_r; lra). assert (a * vnorm q <= / 100 * vnorm q) by (apply Rmult_le_compat_r; lra). lra.
  Qed.
  (** the exact placement takes the computed coordinates of a point close to that point *)
  Lemma coordinates_close : forall x, vw x = 1 ->
    vnorm (vsub (mapply M (mapply X x)) x) <= rho * (from_origin x + P) + a * from_origin (mapply X x) + b * P.
  Proof.
    intros x XW. destruct IV as (RX & ID & IP). destruct NP as (_ & _ & _ & D & DP & _).
    assert (S1 : vnorm (vsub (mapply W (mapply X x)) x) <= rho * (from_origin x + P)).
    { unfold from_origin. set (v := vsub x (point 0 0 0)). assert (V : vw v = 0) by (unfold v; rewrite vsub_w, XW; cbn; ring).
      rewrite (split_point x). fold v. rewrite !mapply_add, add_sub4. eapply Rle_trans; [apply vnorm_add|]. specialize (ID v V). lra. }
    assert (S2 : vnorm (vsub (mapply M (mapply X x)) (mapply W (mapply X x))) <= a * from_origin (mapply X x) + b * P).
    { unfold from_origin. set (y := vsub (mapply X x) (point 0 0 0)). assert (Y : vw y = 0) by (unfold y; rewrite vsub_w, inverse_w, XW; cbn; ring).
      rewrite (split_point (mapply X x)). fold y. rewrite !mapply_add, add_sub4. eapply Rle_trans; [apply vnorm_add|]. specialize (D y Y). rewrite norm_sym in D. rewrite norm_sym in DP. rewrite (Rplus_comm (a * _)). apply Rplus_le_compat; [exact DP|exact D]. }
    pose proof (norm3 (mapply M (mapply X x)) (mapply W (mapply X x)) x). lra.
  Qed.
  Lemma coordinates_bound : forall x, vw x = 1 -> from_origin (mapply X x) <= 11 / 10 * from_origin x + 6 / 5 * P.
  Proof.
    intros x XW. set (v := vsub x (point 0 0 0)). assert (V : vw v = 0) by (unfold v; rewrite vsub_w, XW; cbn; ring).
    assert (E : vsub (mapply X x) (point 0 0 0) = vadd (vsub (mapply X (point 0 0 0)) (point 0 0 0)) (mapply X v)).
    { replace (mapply X x) with (vadd (mapply X (point 0 0 0)) (mapply X v)) by (rewrite <- mapply_add; unfold v; rewrite <- split_point; reflexivity).
      generalize (mapply X (point 0 0 0)) (mapply X v) (point 0 0 0). intros [? ? ? ?] [? ? ? ?] [? ? ? ?]. vr. }
    pose proof inverse_place as IP. pose proof (inverse_norm v V) as (_ & IN). unfold from_origin in *. fold v. rewrite E. eapply Rle_trans; [apply vnorm_add|].
    rewrite Rplus_comm. apply Rplus_le_compat; assumption.
  Qed.
  (** the entries of the computed inverse *)
  Lemma coord_le : forall v, Rabs (vx v) <= vnorm v /\ Rabs (vy v) <= vnorm v /\ Rabs (vz v) <= vnorm v.
  Proof.
    intro v. assert (K : forall x, x * x <= vdot v v -> Rabs x <= vnorm v).
    { intros x H. apply le_of_sqr; [apply vnorm_nonneg|]. rewrite vnorm_sqr. unfold Rabs. destruct Rcase_abs; nra. }
    destruct v as [x y z w]. unfold vdot in K. cbn [vx vy vz vw] in *. repeat split; apply K; nra.
  Qed.
  Lemma axis_norm : vnorm (vector 1 0 0) = 1 /\ vnorm (vector 0 1 0) = 1 /\ vnorm (vector 0 0 1) = 1.
  Proof. unfold vnorm, vdot. cbn [vector vx vy vz vw]. repeat split; (replace (_ + _ + _ + _) with 1 by ring; apply sqrt_1). Qed.
  Definition row_ok (r : v4) : Prop := Rabs (vx r) <= 11 / 10 /\ Rabs (vy r) <= 11 / 10 /\ Rabs (vz r) <= 11 / 10 /\ Rabs (vw r) <= 6 / 5 * P.
  Lemma inverse_rows : row_ok (row0 X) /\ row_ok (row1 X) /\ row_ok (row2 X).
  Proof.
    destruct axis_norm as (N1 & N2 & N3).
    pose proof (inverse_norm (vector 1 0 0) eq_refl) as (_ & I1). pose proof (inverse_norm (vector 0 1 0) eq_refl) as (_ & I2). pose proof (inverse_norm (vector 0 0 1) eq_refl) as (_ & I3).
    pose proof inverse_place as IP. unfold from_origin in IP. rewrite N1 in I1. rewrite N2 in I2. rewrite N3 in I3.
    pose proof (coord_le (mapply X (vector 1 0 0))) as (X1 & X2 & X3). pose proof (coord_le (mapply X (vector 0 1 0))) as (Y1 & Y2 & Y3). pose proof (coord_le (mapply X (vector 0 0 1))) as (Z1 & Z2 & Z3).
    pose proof (coord_le (vsub (mapply X (point 0 0 0)) (point 0 0 0))) as (W1 & W2 & W3).
    destruct (entries_of X) as ((A1 & A2 & A3 & A4) & (B1 & B2 & B3 & B4) & (C1 & C2 & C3 & C4)).
    rewrite A1, B1, C1 in *. rewrite A2, B2, C2 in *. rewrite A3, B3, C3 in *. rewrite A4, B4, C4 in *. unfold row_ok.
    repeat split; eapply Rle_trans; try eassumption; lra.
  Qed.
End Seen.
