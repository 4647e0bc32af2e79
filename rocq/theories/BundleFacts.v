(** * BundleFacts: which rays of a circle or a cone coincide, and the single ray of a cone *)
From Coq Require Import Reals Lra Lia List Bool ZArith.
Import ListNotations.
From Verif Require Import XR Lin LinFacts SpecOptics OpsFacts World Tracer SpecTrace Sources SpecSources SourceFacts SourceProps.
Open Scope R_scope.

Lemma emits_same : forall rnd s wl m p n a b, emits rnd s wl m p n a -> emits rnd s wl m p n b -> a = b.
Proof.
  intros rnd s wl m p n a b A B. unfold emits in *. rewrite A in B. revert b B.
  clear. induction a as [|x a IH]; intros [|y b] M; try discriminate; auto. injection M as M1 M2. f_equal; auto.
Qed.

Lemma circle_gap : forall n i j, (i < j)%nat -> (j - i < n - 1)%nat -> 0 < circle_a n j - circle_a n i < 2 * PI.
Proof.
  intros n i j L G. assert (P := lt_INR1 n ltac:(lia)). unfold circle_a. pose proof PI_RGT_0.
  assert (Ij : INR i < INR j) by (apply lt_INR; auto).
  assert (Dj : INR j - INR i < INR (n - 1)) by (rewrite <- minus_INR by lia; apply lt_INR; auto).
  assert (Q : 0 < / INR (n - 1)) by (apply Rinv_0_lt_compat; auto).
  replace (0 + INR j * ((2 * PI - 0) / INR (n - 1)) - (0 + INR i * ((2 * PI - 0) / INR (n - 1))))
    with (2 * PI * ((INR j - INR i) * / INR (n - 1))) by (field; lra).
  assert (0 < (INR j - INR i) * / INR (n - 1)) by (apply Rmult_lt_0_compat; lra).
  assert ((INR j - INR i) * / INR (n - 1) < 1).
  { apply (Rmult_lt_reg_r (INR (n - 1))); auto. rewrite Rmult_assoc, Rinv_l by lra. lra. }
  split; nra.
Qed.

Lemma circle_ends : forall n, (1 < n)%nat -> circle_a n (n - 1) = 2 * PI /\ circle_a n 0 = 0.
Proof.
  intros n L. assert (P := lt_INR1 n L). split; [unfold circle_a; field; lra|unfold circle_a; simpl; ring].
Qed.

Lemma circle_exactly : forall rnd d wl p n rays, d <> 0 -> emits rnd (CircleOfRays d) wl mid p n rays ->
  forall i j c c', nth_error rays i = Some c -> nth_error rays j = Some c' ->
  (c_ray c = c_ray c' <-> i = j \/ (i = O /\ j = (n - 1)%nat) \/ (j = O /\ i = (n - 1)%nat)).
Proof.
  intros rnd d wl p n rays D E.
  assert (E2 : emits rnd (CircleOfRays d) wl mid p n
    (map (fun i => plain wl 100 (point 0 (d / 2 * sin (circle_a n i)) (d / 2 * cos (circle_a n i))) (vector 1 0 0) i) (seq 0 n))).
  { apply emits_local; [apply circle_local|]. intros i Hi. simpl. vec. }
  rewrite (emits_same _ _ _ _ _ _ _ _ E E2). intros i j c c' I J.
  apply nth_map_seq in I. destruct I as [Li ->]. apply nth_map_seq in J. destruct J as [Lj ->].
  cbn [c_ray plain].
  assert (F : forall x y, (x < y)%nat -> (y < n)%nat -> sin (circle_a n x) = sin (circle_a n y) -> cos (circle_a n x) = cos (circle_a n y) ->
    x = O /\ y = (n - 1)%nat).
  { intros x y L Ly S C. destruct (Nat.lt_ge_cases (y - x) (n - 1)) as [G|G]; [|lia]. exfalso.
    pose proof (circle_gap n x y L G) as Q.
    assert (X : circle_a n x = circle_a n y) by (apply sin_cos_inj; auto; lra). lra. }
  split.
  - intro X. injection X as X1 X2. apply Rmult_eq_reg_l in X1; [|lra]. apply Rmult_eq_reg_l in X2; [|lra].
    destruct (Nat.lt_trichotomy i j) as [L|[L|L]]; auto.
  - assert (Ends : (1 < n)%nat -> sin (circle_a n 0) = sin (circle_a n (n - 1)) /\ cos (circle_a n 0) = cos (circle_a n (n - 1))).
    { intro L. destruct (circle_ends n L) as [-> ->]. rewrite sin_2PI, cos_2PI, sin_0, cos_0. auto. }
    destruct (Nat.lt_ge_cases 1 n) as [L|L].
    + destruct (Ends L) as [S C]. intros [-> |[[-> ->]|[-> ->]]]; [reflexivity|rewrite S, C; reflexivity|rewrite S, C; reflexivity].
    + intros _. replace j with i by lia. reflexivity.
Qed.

Lemma circle_single : forall rnd d wl p, exists c, emits rnd (CircleOfRays d) wl mid p 1 [c] /\
  c_ray c = Ray (point 0 0 (d / 2)) x_axis.
Proof.
  intros. eexists. split.
  - apply (emits_local rnd (CircleOfRays d) wl p 1 _ (circle_local rnd d wl p 1)). intros i Hi. simpl. vec.
  - cbn [c_ray plain]. unfold circle_a. cbn [INR]. rewrite !Rmult_0_l, Rplus_0_l, sin_0, cos_0. f_equal. unfold point. f_equal; ring.
Qed.

(** ** Cones of any angle *)
Lemma cone_exactly : forall rnd a wl p n, (1 < n)%nat -> exists rays,
  emits rnd (ConeOfRays a) wl mid p n rays /\ length rays = n /\
  (forall k c, nth_error rays k = Some c ->
     fresh_ray wl k c /\ c_int c = 100 /\ origin (c_ray c) = point 0 0 0 /\
     let b := 2 * PI * (INR k / INR n) in
     direction (c_ray c) = vector (cos (radians a)) (sin (radians a) * sin b) (sin (radians a) * cos b)) /\
  (forall i j c c', nth_error rays i = Some c -> nth_error rays j = Some c' ->
     (c_ray c = c_ray c' <-> i = j \/ sin (radians a) = 0)).
Proof.
  intros rnd a wl p n N1. eexists; split; [|split; [|split]].
  - apply emits_local; [apply cone_local|]. intros i Hi. simpl. destruct (Nat.ltb_spec 1 n); [apply cone_unit|lia].
  - rewrite map_length, seq_length. reflexivity.
  - intros k c H. apply nth_map_seq in H. destruct H as [L E]; subst c. destruct (Nat.ltb_spec 1 n); [|lia].
    assert (P : 0 < INR n) by (apply lt_0_INR; lia). split; [repeat split|]. split; [reflexivity|]. split; [reflexivity|].
    cbn [c_ray plain direction]. unfold cone_a. cbv zeta. replace (2 * PI * INR k / INR n) with (2 * PI * (INR k / INR n)) by (field; lra). reflexivity.
  - intros i j c c' I J. apply nth_map_seq in I. destruct I as [Li ->]. apply nth_map_seq in J. destruct J as [Lj ->].
    cbn [c_ray plain]. destruct (Nat.ltb_spec 1 n); [|lia]. split.
    + intro E. destruct (Req_dec (sin (radians a)) 0) as [Z|Z]; auto. left.
      assert (P : 0 < INR n) by (apply lt_0_INR; lia). pose proof PI_RGT_0.
      injection E as E1 E2. apply Rmult_eq_reg_l in E1; [|lra]. apply Rmult_eq_reg_l in E2; [|lra].
      assert (Bd : forall i, (i < n)%nat -> 0 <= cone_a n i < 2 * PI).
      { intros k Hk. assert (0 <= INR k) by apply pos_INR. assert (INR k < INR n) by (apply lt_INR; auto).
        unfold cone_a. split; [apply Rmult_le_pos; [nra|apply Rlt_le, Rinv_0_lt_compat; auto]|].
        apply (Rmult_lt_reg_r (INR n)); auto. unfold Rdiv. rewrite Rmult_assoc, Rinv_l by lra. nra. }
      pose proof (Bd i Li). pose proof (Bd j Lj).
      assert (X : cone_a n i = cone_a n j) by (apply sin_cos_inj; auto; lra).
      apply INR_eq. unfold cone_a in X.
      apply (Rmult_eq_reg_l (2 * PI)); [|lra]. apply (Rmult_eq_reg_r (/ INR n)); [exact X|apply Rinv_neq_0_compat; lra].
    + intros [-> | Z]; [reflexivity|]. rewrite Z, !Rmult_0_l. reflexivity.
Qed.

(** one ray: along the axis, forwards or backwards, and no ray at a right angle *)
Lemma cone_single_exactly : forall rnd a wl p,
  fst (generate_rays rnd (ConeOfRays a) wl mid p 1) =
  [ if Req_EM_T (cos (radians a)) 0 then None
    else Some (plain wl 100 (point 0 0 0) (vector (if Rlt_dec 0 (cos (radians a)) then 1 else -1) 0 0) 0) ].
Proof.
  intros rnd a wl p. rewrite generate_eq, cone_local. cbn [Nat.ltb Nat.leb seq map]. f_equal.
  set (c := cos (radians a)). clearbody c. destruct (Req_EM_T c 0) as [Z|NZ].
  - unfold place_ray. cbn [c_ray with_ray plain ray_map direction]. rewrite mapply_mid, Z.
    destruct (vnormalize_none (vector 0 0 0)) as [_ N]. rewrite N by reflexivity. reflexivity.
  - rewrite place_some; cbn [c_ray plain direction origin].
    + f_equal. unfold with_ray, plain; cbn [c_gen c_int c_wl c_idx c_id]. f_equal. rewrite !mapply_mid. f_equal.
      unfold hat, vnorm, vdot, vector, vscale; simpl.
      replace (c * c + 0 * 0 + 0 * 0 + 0 * 0) with (Rsqr c) by (unfold Rsqr; ring). rewrite sqrt_Rsqr_abs.
      destruct (Rlt_dec 0 c); [rewrite Rabs_right by lra|rewrite Rabs_left by lra]; f_equal; try ring; field; lra.
    + rewrite mapply_mid. unfold vdot, vector; simpl. nra.
Qed.

Lemma cone_single_cases : forall rnd a wl p,
  (0 < cos (radians a) -> exists c, emits rnd (ConeOfRays a) wl mid p 1 [c] /\ fresh_ray wl 0 c /\ c_ray c = Ray (point 0 0 0) x_axis) /\
  (cos (radians a) < 0 -> exists c, emits rnd (ConeOfRays a) wl mid p 1 [c] /\ fresh_ray wl 0 c /\ c_ray c = Ray (point 0 0 0) (vopp x_axis)) /\
  (cos (radians a) = 0 -> fst (generate_rays rnd (ConeOfRays a) wl mid p 1) = [None]).
Proof.
  intros rnd a wl p. unfold emits. rewrite cone_single_exactly. split; [|split]; intro H.
  - destruct (Req_EM_T (cos (radians a)) 0); [lra|]. destruct (Rlt_dec 0 (cos (radians a))); [|lra].
    eexists. split; [reflexivity|]. repeat split.
  - destruct (Req_EM_T (cos (radians a)) 0); [lra|]. destruct (Rlt_dec 0 (cos (radians a))); [lra|].
    eexists. split; [reflexivity|]. split; [repeat split|]. cbn [c_ray plain]. f_equal.
    unfold vector, vopp, x_axis, vector, vscale; cbn [vx vy vz vw]. f_equal; lra.
  - destruct (Req_EM_T (cos (radians a)) 0); [reflexivity|lra].
Qed.
