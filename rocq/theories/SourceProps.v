(** * SourceProps: the properties of the sources *)
From Coq Require Import Reals Lra Lia List Bool ZArith Permutation.
Import ListNotations.
From Verif Require Import XR Lin LinFacts SpecOptics OpsFacts World Tracer SpecTrace Sources SpecSources SourceFacts.
Open Scope R_scope.

Ltac vec := unfold unit, vdot, vector, point; simpl; nra.
Lemma lt_INR1 : forall n, (1 < n)%nat -> 0 < INR (n - 1).
Proof. intros n H. apply lt_0_INR. lia. Qed.
Lemma nth_map_seq : forall {A} (f : nat -> A) n k c, nth_error (map f (seq 0 n)) k = Some c -> (k < n)%nat /\ c = f k.
Proof.
  intros A f n k c E. assert (L : (k < n)%nat).
  { assert (H : nth_error (map f (seq 0 n)) k <> None) by congruence. apply nth_error_Some in H.
    rewrite map_length, seq_length in H. exact H. }
  split; auto. rewrite nth_error_map in E. rewrite (nth_error_nth' _ 0%nat) in E by (rewrite seq_length; exact L).
  rewrite seq_nth in E by exact L. simpl in E. congruence.
Qed.
Lemma NoDup_rays : forall f n, (forall i j, (i < n)%nat -> (j < n)%nat -> c_ray (f i) = c_ray (f j) -> i = j) ->
  NoDup (map c_ray (map f (seq 0 n))).
Proof. intros. rewrite map_map. apply NoDup_map_seq. exact H. Qed.

(** ** Line *)
Lemma line_bundle : forall rnd s wl p n, exists rays,
  emits rnd (LineOfRays s) wl mid p n rays /\ length rays = n /\
  (forall k c, nth_error rays k = Some c ->
     fresh_ray wl k c /\ c_int c = 100 /\ direction (c_ray c) = x_axis /\
     exists y, origin (c_ray c) = point 0 y 0 /\
       (n = 1%nat -> y = 0) /\ ((1 < n)%nat -> y = - s / 2 + s * (INR k / INR (n - 1)))) /\
  (s <> 0 -> NoDup (map c_ray rays)).
Proof.
  intros. eexists; repeat split.
  - apply emits_local; [apply line_local|]. intros i Hi. simpl. vec.
  - rewrite map_length, seq_length. reflexivity.
  - apply nth_map_seq in H. destruct H as [L E]; subst c; reflexivity.
  - apply nth_map_seq in H. destruct H as [L E]; subst c; reflexivity.
  - apply nth_map_seq in H. destruct H as [L E]; subst c; reflexivity.
  - apply nth_map_seq in H. destruct H as [L E]; subst c; reflexivity.
  - apply nth_map_seq in H. destruct H as [L E]; subst c; reflexivity.
  - apply nth_map_seq in H. destruct H as [L E]; subst c; reflexivity.
  - apply nth_map_seq in H. destruct H as [L E]; subst c. exists (line_y s n k). split; [reflexivity|].
    unfold line_y. destruct (Nat.ltb_spec 1 n); split; intros; try lia; try reflexivity.
    assert (P := lt_INR1 n H). field. lra.
  - intros NZ. apply NoDup_rays. intros i j Hi Hj E. cbn in E. injection E as E. unfold line_y in E.
    destruct (Nat.ltb_spec 1 n); [|lia]. assert (P := lt_INR1 n H). apply INR_eq.
    assert (Q : INR i * s = INR j * s).
    { apply (Rmult_eq_reg_r (/ INR (n - 1))); [|apply Rinv_neq_0_compat; lra].
      replace (INR i * s * / INR (n - 1)) with (INR i * ((s / 2 - - s / 2) / INR (n - 1))) by (field; lra).
      replace (INR j * s * / INR (n - 1)) with (INR j * ((s / 2 - - s / 2) / INR (n - 1))) by (field; lra). lra. }
    apply Rmult_eq_reg_r in Q; auto.
Qed.

(** ** Circle *)
Lemma circle_bundle : forall rnd d wl p n, exists rays,
  emits rnd (CircleOfRays d) wl mid p n rays /\ length rays = n /\
  (forall k c, nth_error rays k = Some c ->
     fresh_ray wl k c /\ c_int c = 100 /\ direction (c_ray c) = x_axis /\
     exists a, origin (c_ray c) = point 0 (d / 2 * sin a) (d / 2 * cos a) /\
       ((1 < n)%nat -> a = 2 * PI * (INR k / INR (n - 1)))).
Proof.
  intros. eexists; split; [|split].
  - apply emits_local; [apply circle_local|]. intros i Hi. simpl. vec.
  - rewrite map_length, seq_length. reflexivity.
  - intros k c H. apply nth_map_seq in H. destruct H as [L E]; subst c. repeat split.
    exists (circle_a n k). split; [reflexivity|]. intros H. unfold circle_a. assert (P := lt_INR1 n H). field. lra.
Qed.
Lemma circle_repeats : forall rnd d wl p n rays, (1 < n)%nat -> emits rnd (CircleOfRays d) wl mid p n rays ->
  exists c c', nth_error rays 0 = Some c /\ nth_error rays (n - 1) = Some c' /\ c_ray c = c_ray c'.
Proof.
  intros rnd d wl p n rays L E.
  assert (E2 : emits rnd (CircleOfRays d) wl mid p n
    (map (fun i => plain wl 100 (point 0 (d / 2 * sin (circle_a n i)) (d / 2 * cos (circle_a n i))) (vector 1 0 0) i) (seq 0 n))).
  { apply emits_local; [apply circle_local|]. intros i Hi. simpl. vec. }
  unfold emits in *. rewrite E in E2.
  assert (I : forall (a b : list col), map Some a = map Some b -> a = b).
  { induction a as [|x a IH]; intros [|y b] M; try discriminate; auto. injection M as M1 M2. f_equal; auto. }
  apply I in E2. subst rays. rewrite !nth_error_map.
  rewrite !(nth_error_nth' _ 0%nat) by (rewrite seq_length; lia). rewrite !seq_nth by lia. simpl.
  eexists; eexists; repeat split. cbn.
  assert (P := lt_INR1 n L).
  replace (circle_a n (n - 1)) with (2 * PI) by (unfold circle_a; field; lra).
  replace (circle_a n 0) with 0 by (unfold circle_a; simpl; ring).
  rewrite sin_2PI, cos_2PI, sin_0, cos_0. reflexivity.
Qed.

(** ** Cone *)
Lemma cone_unit : forall a b, unit (vector (cos a) (sin a * sin b) (sin a * cos b)).
Proof.
  intros. unfold unit, vdot, vector; simpl. pose proof (sc1 a). pose proof (sc1 b).
  replace (cos a * cos a + sin a * sin b * (sin a * sin b) + sin a * cos b * (sin a * cos b) + 0 * 0)
    with (cos a * cos a + sin a * sin a * (sin b * sin b + cos b * cos b)) by ring. rewrite H0. lra.
Qed.
Lemma norm_unit : forall v, unit v -> vnorm v = 1.
Proof. intros v U. unfold vnorm. rewrite U. apply sqrt_1. Qed.
Lemma angle_of : forall u a, unit u -> 0 <= a <= PI -> vx u = cos a -> at_angle u x_axis a.
Proof.
  intros u a U B E. split; auto. rewrite (norm_unit u U). rewrite (norm_unit x_axis) by vec.
  unfold vdot, x_axis, vector; simpl. rewrite E. ring.
Qed.
Lemma radians_range : forall a, 0 <= a <= 180 -> 0 <= radians a <= PI.
Proof. intros a [L U]. unfold radians. pose proof PI_RGT_0. split; [nra|]. apply (Rmult_le_reg_r 180); nra. Qed.
Lemma cone_bundle : forall rnd a wl p n, 0 <= a <= 180 -> n <> 1%nat -> exists rays,
  emits rnd (ConeOfRays a) wl mid p n rays /\ length rays = n /\
  (forall k c, nth_error rays k = Some c ->
     fresh_ray wl k c /\ c_int c = 100 /\ origin (c_ray c) = point 0 0 0 /\
     unit (direction (c_ray c)) /\ at_angle (direction (c_ray c)) x_axis (radians a) /\
     let b := 2 * PI * (INR k / INR n) in
     direction (c_ray c) = vector (cos (radians a)) (sin (radians a) * sin b) (sin (radians a) * cos b)) /\
  (0 < a < 180 -> NoDup (map c_ray rays)).
Proof.
  intros rnd a wl p n B N1. eexists; split; [|split; [|split]].
  - apply emits_local; [apply cone_local|]. intros i Hi. simpl. destruct (Nat.ltb_spec 1 n); [apply cone_unit|lia].
  - rewrite map_length, seq_length. reflexivity.
  - intros k c H. apply nth_map_seq in H. destruct H as [L E]; subst c. destruct (Nat.ltb_spec 1 n); [|lia].
    assert (P : 0 < INR n) by (apply lt_0_INR; lia).
    repeat split; try (apply radians_range; auto); cbn [c_ray plain direction]; try apply cone_unit.
    + rewrite (norm_unit _ (cone_unit _ _)). rewrite (norm_unit x_axis) by vec.
      unfold vdot, x_axis, vector; simpl. ring.
    + unfold cone_a. replace (2 * PI * INR k / INR n) with (2 * PI * (INR k / INR n)) by (field; lra). reflexivity.
  - intros A. apply NoDup_rays. intros i j Hi Hj E. cbn [c_ray plain] in E. destruct (Nat.ltb_spec 1 n); [|lia].
    assert (P : 0 < INR n) by (apply lt_0_INR; lia). pose proof PI_RGT_0.
    assert (S : 0 < sin (radians a)).
    { apply sin_gt_0; unfold radians; [nra|]. apply (Rmult_lt_reg_r 180); nra. }
    injection E as E1 E2. apply Rmult_eq_reg_l in E1; [|lra]. apply Rmult_eq_reg_l in E2; [|lra].
    assert (Bd : forall i, (i < n)%nat -> 0 <= cone_a n i < 2 * PI).
    { intros k Hk. assert (0 <= INR k) by apply pos_INR. assert (INR k < INR n) by (apply lt_INR; auto).
      unfold cone_a. split; [apply Rmult_le_pos; [nra|apply Rlt_le, Rinv_0_lt_compat; auto]|].
      apply (Rmult_lt_reg_r (INR n)); auto. unfold Rdiv. rewrite Rmult_assoc, Rinv_l by lra. nra. }
    pose proof (Bd i Hi). pose proof (Bd j Hj).
    assert (X : cone_a n i = cone_a n j) by (apply sin_cos_inj; auto; lra).
    apply INR_eq. unfold cone_a in X.
    apply (Rmult_eq_reg_l (2 * PI)); [|lra]. apply (Rmult_eq_reg_r (/ INR n)); [exact X|apply Rinv_neq_0_compat; lra].
Qed.
Lemma single_cone_ray : forall rnd a wl p, 0 < a < 90 ->
  exists c, emits rnd (ConeOfRays a) wl mid p 1 [c] /\ direction (c_ray c) = x_axis /\
    ~ at_angle (direction (c_ray c)) x_axis (radians a).
Proof.
  intros rnd a wl p A. pose proof PI_RGT_0.
  assert (C : 0 < cos (radians a)).
  { apply cos_gt_0; unfold radians; [nra|]. apply (Rmult_lt_reg_r 180); nra. }
  exists (plain wl 100 (point 0 0 0) x_axis 0). repeat split.
  - unfold emits. rewrite generate_eq, cone_local. cbn [Nat.ltb Nat.leb seq map]. f_equal.
    rewrite place_some; cbn [c_ray plain direction origin].
    + f_equal. unfold with_ray, plain; cbn [c_gen c_int c_wl c_idx c_id]. f_equal. rewrite !mapply_mid. f_equal.
      unfold hat, vnorm, vdot, vector, vscale, x_axis, vector; simpl.
      replace (cos (radians a) * cos (radians a) + 0 * 0 + 0 * 0 + 0 * 0) with (cos (radians a) * cos (radians a)) by ring.
      rewrite sqrt_square by lra. f_equal; try ring. field. lra.
    + rewrite mapply_mid. unfold vdot, vector; simpl. nra.
  - intros [B E]. cbn in E. rewrite (norm_unit x_axis) in E by vec.
    assert (D : vdot (vector 1 0 0) x_axis = 1) by (unfold vdot, x_axis, vector; simpl; ring).
    unfold x_axis in E at 1. rewrite D in E.
    assert (X : radians a = 0) by (apply cos_one; [|lra]; unfold radians in *; nra).
    unfold radians in X. nra.
Qed.

(** ** Wedge *)
Lemma wedge_bundle : forall rnd a wl p n, exists rays,
  emits rnd (WedgeOfRays a) wl mid p n rays /\ length rays = n /\
  (forall k c, nth_error rays k = Some c ->
     fresh_ray wl k c /\ c_int c = 100 /\ origin (c_ray c) = point 0 0 0 /\
     exists b, direction (c_ray c) = vector (cos b) (sin b) 0 /\
       (n = 1%nat -> b = - radians a / 2) /\
       ((1 < n)%nat -> b = - radians a / 2 + radians a * (INR k / INR (n - 1)))) /\
  (0 < a < 360 -> NoDup (map c_ray rays)).
Proof.
  intros. eexists; split; [|split; [|split]].
  - apply emits_local; [apply wedge_local|]. intros i Hi. simpl. unfold unit, vdot, vector; simpl.
    pose proof (sc1 (wedge_a (radians a) n i)). lra.
  - rewrite map_length, seq_length. reflexivity.
  - intros k c H. apply nth_map_seq in H. destruct H as [L E]; subst c. repeat split.
    exists (wedge_a (radians a) n k). split; [reflexivity|]. split; intros H; unfold wedge_a.
    + assert (k = O) by lia. subst k. simpl. ring.
    + assert (P := lt_INR1 n H). field. lra.
  - intros A. apply NoDup_rays. intros i j Hi Hj E. cbn in E. injection E as E1 E2. pose proof PI_RGT_0.
    destruct (Nat.eq_dec n 1) as [|N1]; [lia|]. assert (P := lt_INR1 n ltac:(lia)).
    set (r := radians a) in *. assert (R0 : 0 < r < 2 * PI).
    { unfold r, radians. split; [nra|]. apply (Rmult_lt_reg_r 180); nra. }
    assert (Bd : forall i, (i < n)%nat -> 0 <= INR i / INR (n - 1) <= 1).
    { intros k Hk. assert (0 <= INR k) by apply pos_INR. assert (INR k <= INR (n - 1)) by (apply le_INR; lia).
      split; [apply Rmult_le_pos; [auto|apply Rlt_le, Rinv_0_lt_compat; auto]|].
      apply (Rmult_le_reg_r (INR (n - 1))); auto. unfold Rdiv. rewrite Rmult_assoc, Rinv_l; lra. }
    assert (F : forall k, wedge_a r n k = - r / 2 + r * (INR k / INR (n - 1))) by (intros; unfold wedge_a; field; lra).
    pose proof (Bd i Hi). pose proof (Bd j Hj).
    assert (X : wedge_a r n i = wedge_a r n j).
    { apply sin_cos_inj; auto. rewrite !F. split; nra. }
    rewrite !F in X. apply INR_eq. apply (Rmult_eq_reg_r (/ INR (n - 1))); [|apply Rinv_neq_0_compat; lra].
    apply (Rmult_eq_reg_l r); [unfold Rdiv in X; lra|lra].
Qed.

(** ** Placement *)
Lemma emits_ok : forall rnd s wl m i p n rays, is_inverse m i -> affine m -> emits rnd s wl mid p n rays ->
  exists rays', emits rnd s wl m p n rays' /\ Forall2 (carried m) rays rays' /\
    forall c, In c rays' -> ray_ok c /\ c_gen c = O.
Proof.
  intros rnd s wl m i p n rays I A E. destruct (placed_rays _ _ _ _ _ _ _ _ I E) as [rays' [E' F]].
  exists rays'. repeat split; auto; unfold emits in E'; rewrite generate_eq in E'.
  all: assert (L : exists l, In l (fst (local_rays rnd s wl p n)) /\ place_ray m l = Some c)
    by (apply (in_map Some) in H; rewrite <- E' in H; apply in_map_iff in H; destruct H as [l [X Y]]; exists l; auto);
    destruct L as [l [L P]];
    assert (K : vw (origin (c_ray l)) = 1 /\ vw (direction (c_ray l)) = 0 /\ c_idx l = 1 /\ c_gen l = O)
    by (clear - L; destruct s; [rewrite line_local in L|rewrite circle_local in L|rewrite cone_local in L|rewrite wedge_local in L|rewrite lamp_local in L];
      apply in_map_iff in L; destruct L as [k [X _]]; subst l; try (destruct (Nat.ltb 1 n)); cbn; auto);
    destruct K as [K1 [K2 [K3 K4]]];
    unfold place_ray in P; cbn in P; destruct (vnormalize (mapply m (direction (c_ray l)))) as [d|] eqn:D; [|discriminate];
    injection P as P; subst c; cbn.
  - rewrite <- K1. apply affine_w; auto.
  - apply vnormalize_some in D. destruct D as [NZ D]. subst d. cbn [vscale vw]. pose proof (affine_w m (direction (c_ray l)) A) as W. rewrite W, K2. ring.
  - left. assert (NZ : vdot (mapply m (direction (c_ray l))) (mapply m (direction (c_ray l))) <> 0).
    { intros Z. apply vdot_self_zero in Z. apply vnormalize_none in Z. congruence. }
    destruct (vnormalize_hat _ NZ) as [D' U]. rewrite D in D'. injection D' as D'. rewrite D'. exact U.
  - rewrite K3. lra.
  - exact K4.
Qed.

(** ** Lamp *)
Lemma lamp_cos : forall u m, 0 <= u < 1 -> 0 <= m <= PI ->
  cos m <= 1 - u * (1 - cos m) <= 1 /\ -1 <= 1 - u * (1 - cos m) <= 1.
Proof. intros u m U M. pose proof (COS_bound m). split; nra. Qed.
Lemma acos_le : forall x m, 0 <= m <= PI -> cos m <= x <= 1 -> acos x <= m.
Proof.
  intros x m M X. pose proof (COS_bound m). pose proof (acos_bound x) as [A0 A1].
  destruct (Rle_or_lt (acos x) m); auto. exfalso.
  assert (cos (acos x) < cos m) by (apply cos_decreasing_1; lra). rewrite cos_acos in H1; lra.
Qed.
Lemma lamp_bundle : forall rnd w l a wl p n, sampler rnd -> 0 <= w -> 0 <= l -> 0 <= a <= 180 -> exists rays,
  emits rnd (Lamp w l a) wl mid p n rays /\ length rays = n /\
  (forall k c, nth_error rays k = Some c ->
     fresh_ray wl k c /\ unit (direction (c_ray c)) /\
     (exists y z, origin (c_ray c) = point 0 y z /\ - w / 2 <= y <= w / 2 /\ - l / 2 <= z <= l / 2) /\
     (exists t, at_angle (direction (c_ray c)) x_axis t /\ t <= radians a /\ c_int c = 100 * cos t)).
Proof.
  intros rnd w l a wl p n S W L A. assert (M := radians_range a A).
  eexists; split; [|split].
  - apply emits_local; [apply lamp_local|]. intros i Hi. cbn.
    set (t := lamp_theta rnd (radians a) p i). set (f := lamp_phi rnd p n i).
    unfold unit, vdot, vector; simpl. pose proof (sc1 t). pose proof (sc1 f).
    replace (cos t * cos t + sin t * cos f * (sin t * cos f) + sin t * sin f * (sin t * sin f) + 0 * 0)
      with (cos t * cos t + sin t * sin t * (sin f * sin f + cos f * cos f)) by ring. rewrite H0. lra.
  - rewrite map_length, seq_length. reflexivity.
  - intros k c H. apply nth_map_seq in H. destruct H as [K E]; subst c.
    set (t := lamp_theta rnd (radians a) p k). set (f := lamp_phi rnd p n k).
    assert (U : unit (vector (cos t) (sin t * cos f) (sin t * sin f))).
    { unfold unit, vdot, vector; simpl. pose proof (sc1 t). pose proof (sc1 f).
      replace (cos t * cos t + sin t * cos f * (sin t * cos f) + sin t * sin f * (sin t * sin f) + 0 * 0)
        with (cos t * cos t + sin t * sin t * (sin f * sin f + cos f * cos f)) by ring. rewrite H0. lra. }
    split; [repeat split|]. split; [exact U|]. split.
    + cbn. eexists; eexists; split; [reflexivity|].
      pose proof (S (p + 2 * n + k)%nat). pose proof (S (p + 3 * n + k)%nat). simpl in H, H0. split; split; nra.
    + exists t. assert (X := lamp_cos _ _ (S (p + k)%nat) M). destruct X as [X1 X2]. split; [|split].
      * apply angle_of; [exact U| |reflexivity]. apply acos_bound.
      * apply acos_le; auto.
      * reflexivity.
Qed.
(** How often small angles are drawn *)
Lemma lamp_cdf : forall u m t, 0 <= u < 1 -> 0 < m <= PI -> 0 <= t <= m ->
  (acos (1 - u * (1 - cos m)) <= t <-> u <= (1 - cos t) / (1 - cos m)).
Proof.
  intros u m t U M T. assert (X := lamp_cos u m U ltac:(lra)). destruct X as [X1 X2].
  assert (C : cos m < 1).
  { rewrite <- cos_0. apply cos_decreasing_1; lra. }
  assert (Q : u <= (1 - cos t) / (1 - cos m) <-> cos t <= 1 - u * (1 - cos m)).
  { split; intros H.
    - assert (u * (1 - cos m) <= (1 - cos t) / (1 - cos m) * (1 - cos m)) by (apply Rmult_le_compat_r; lra).
      unfold Rdiv in H0. rewrite Rmult_assoc, Rinv_l in H0; lra.
    - apply (Rmult_le_reg_r (1 - cos m)); [lra|]. unfold Rdiv. rewrite Rmult_assoc, Rinv_l; lra. }
  rewrite Q. split; intros H.
  - rewrite <- (cos_acos (1 - u * (1 - cos m))) by lra.
    destruct (Rle_lt_or_eq_dec _ _ H) as [H'|H'].
    + apply Rlt_le. pose proof (acos_bound (1 - u * (1 - cos m))). apply cos_decreasing_1; lra.
    + rewrite H'. lra.
  - apply acos_le; lra.
Qed.
