(** * FlWorldProps: the drift of an object that is moved about *)
From Coq Require Import Reals List Bool ZArith Permutation Lra Lia Psatz.
Import ListNotations.
From Verif Require Import XR XRFacts Lin LinFacts World SpecWorld WorldFacts3 SpecOptics Fl FlHits SpecFl FlFacts FlProps FlOptics FlWorld SpecFlWorld FlWorldFacts.
Open Scope R_scope.

(** ** Sine and cosine *)
Lemma abs_sin_le : forall x, Rabs (sin x) <= Rabs x.
Proof.
  assert (P : forall x, 0 < x -> Rabs (sin x) <= x).
  { intros x X. destruct (Rle_dec x 1) as [L|L].
    - assert (0 <= sin x) by (apply sin_ge_0; pose proof PI_RGT_0; pose proof PI2_1; lra). rewrite Rabs_right by lra. left. apply sin_lt_x; auto.
    - pose proof (SIN_bound x). apply Rabs_le. lra. }
  intro x. destruct (Rtotal_order x 0) as [L|[->|G]].
  - rewrite <- (Rabs_Ropp x), <- (Rabs_Ropp (sin x)), <- sin_neg, (Rabs_right (- x)) by lra. apply P. lra.
  - rewrite sin_0. apply Rle_refl.
  - rewrite (Rabs_right x) by lra. auto.
Qed.
Lemma sin_near : forall x y, Rabs (sin x - sin y) <= Rabs (x - y).
Proof.
  intros x y. rewrite form4. rewrite !Rabs_mult, (Rabs_right 2) by lra.
  pose proof (abs_sin_le ((x - y) / 2)) as S. pose proof (COS_bound ((x + y) / 2)) as C.
  assert (C1 : Rabs (cos ((x + y) / 2)) <= 1) by (apply Rabs_le; lra).
  unfold Rdiv in S at 2. rewrite Rabs_mult, (Rabs_right (/ 2)) in S by lra.
  pose proof (Rabs_pos (cos ((x + y) / 2))). pose proof (Rabs_pos (sin ((x - y) / 2))). nra.
Qed.
Lemma cos_near : forall x y, Rabs (cos x - cos y) <= Rabs (x - y).
Proof.
  intros x y. rewrite form2. rewrite !Rabs_mult, (Rabs_left (-2)) by lra.
  pose proof (abs_sin_le ((x - y) / 2)) as S. pose proof (SIN_bound ((x + y) / 2)) as C.
  assert (C1 : Rabs (sin ((x + y) / 2)) <= 1) by (apply Rabs_le; lra).
  unfold Rdiv in S at 2. rewrite Rabs_mult, (Rabs_right (/ 2)) in S by lra.
  pose proof (Rabs_pos (sin ((x + y) / 2))). pose proof (Rabs_pos (sin ((x - y) / 2))). nra.
Qed.

Lemma norm_le : forall e v k, 0 <= k -> vdot e e <= (k * k) * vdot v v -> vnorm e <= k * vnorm v.
Proof.
  intros e v k K H. apply le_of_sqr; [apply Rmult_le_pos; auto using vnorm_nonneg|]. rewrite vnorm_sqr.
  replace (k * vnorm v * (k * vnorm v)) with ((k * k) * (vnorm v * vnorm v)) by ring. rewrite vnorm_sqr. exact H.
Qed.
Lemma sqr_abs_le : forall x d, Rabs x <= d -> x * x <= d * d.
Proof. intros x d H. pose proof (Rabs_pos x). replace (x * x) with (Rabs x * Rabs x) by (rewrite <- Rabs_mult; apply Rabs_right; nra). nra. Qed.

(** the error in two of the entries *)
Lemma two_entries : forall a b y z d, Rabs a <= d -> Rabs b <= d ->
  (a * y - b * z) * (a * y - b * z) + (b * y + a * z) * (b * y + a * z) <= (2 * d) * (2 * d) * (y * y + z * z).
Proof.
  intros a b y z d A B. apply sqr_abs_le in A. apply sqr_abs_le in B.
  replace ((a * y - b * z) * (a * y - b * z) + (b * y + a * z) * (b * y + a * z)) with ((a * a + b * b) * (y * y + z * z)) by ring.
  apply Rmult_le_compat_r; nra.
Qed.
Lemma row_norm2 : forall c s, Rabs c <= 1 + / 4 -> Rabs s <= 1 + / 4 -> c * c + s * s <= 4.
Proof. intros c s A B. apply sqr_abs_le in A. apply sqr_abs_le in B. lra. Qed.
Lemma norm_two : forall v, vdot v v <= 4 -> vnorm v <= 2.
Proof. intros v H. apply le_of_sqr; [lra|]. rewrite vnorm_sqr. lra. Qed.

Section Drift.
  Variable rnd : R -> R.
  Variables fsin fcos : R -> R.
  Variables u eta delta A : R.
  Hypothesis U0 : 0 <= u.
  Hypothesis U1 : u <= / 1000000.
  Hypothesis E0 : 0 <= eta.
  Hypothesis E1 : eta <= u * / 1000000.
  Hypothesis RW : rounds_within u eta rnd.
  Hypothesis LN : leaves_numbers rnd.
  Hypothesis D0 : 0 <= delta.
  Hypothesis TW : trig_within delta rnd fsin fcos.
  Hypothesis A1 : 1 <= A.
  Let D := delta + 5 * u * A.
  Let c := per_movement u delta A.

  Lemma angle_error : forall a, Rabs a * PI / 180 <= A -> Rabs (rnd (rnd (a * rnd PI) / 180) - a * PI / 180) <= 5 * u * A.
  Proof.
    intros a HA. pose proof PI_RGT_0 as P0. assert (P3 : 3 <= PI) by (pose proof PI2_3_2; lra). pose proof PI_4 as P4. pose proof (Rabs_pos a) as AA.
    assert (K1 : Rabs (a * rnd PI - a * PI) <= Rabs a * (u * PI + eta)).
    { replace (a * rnd PI - a * PI) with (a * (rnd PI - PI)) by ring. rewrite Rabs_mult. apply Rmult_le_compat_l; auto. pose proof (RW PI) as H. rewrite (Rabs_right PI) in H by lra. exact H. }
    pose proof (rnd_at rnd u eta U0 RW _ _ _ K1) as K2. rewrite (Rabs_mult a PI), (Rabs_right PI) in K2 by lra.
    set (t := Rabs a) in *. assert (T : t * PI <= 180 * A) by lra. assert (T2 : t <= 60 * A) by nra.
    assert (B1 : t * (u * PI + eta) <= u * (180.1 * A)) by nra.
    assert (B2 : u * (t * PI + t * (u * PI + eta)) <= u * (180.1 * A)).
    { apply Rmult_le_compat_l; auto. assert (u * (180.1 * A) <= / 1000000 * (180.1 * A)) by (apply Rmult_le_compat_r; lra). lra. }
    assert (B3 : eta <= u * (0.01 * A)) by nra.
    assert (K3 : Rabs (rnd (a * rnd PI) / 180 - a * PI / 180) <= 2.01 * u * A).
    { replace (rnd (a * rnd PI) / 180 - a * PI / 180) with ((rnd (a * rnd PI) - a * PI) * / 180) by lra. rewrite Rabs_mult, (Rabs_right (/ 180)) by lra. lra. }
    pose proof (rnd_at rnd u eta U0 RW _ _ _ K3) as K4.
    assert (K5 : Rabs (a * PI / 180) <= A). { unfold Rdiv. rewrite !Rabs_mult, (Rabs_right PI), (Rabs_right (/ 180)) by lra. exact HA. }
    assert (u * (Rabs (a * PI / 180) + 2.01 * u * A) <= u * (1.1 * A)).
    { apply Rmult_le_compat_l; auto. assert (u * A <= / 1000000 * A) by (apply Rmult_le_compat_r; lra). lra. }
    eapply Rle_trans; [exact K4|]. lra.
  Qed.
  Lemma trig_error : forall a un s k, turn rnd A a un -> fl_sin_cos rnd fsin fcos a un = Some (s, k) ->
    exists s' k', sin_cos a un = Some (s', k') /\ Rabs (s - s') <= D /\ Rabs (k - k') <= D /\ s' * s' + k' * k' = 1.
  Proof.
    destruct LN as (_ & _ & RI). assert (UA : 0 <= 5 * u * A) by nra.
    intros a un s k (N & B) H. destruct un; cbn in H; try discriminate; injection H as <- <-; cbn [sin_cos].
    - set (x := rnd (rnd (a * rnd PI) / 180)). destruct (TW x (RI _)) as (S1 & C1). pose proof (angle_error a B) as AE. fold x in AE.
      exists (sin (a * PI / 180)), (cos (a * PI / 180)). split; auto. unfold D. repeat split; [| |apply sc].
      + replace (fsin x - sin (a * PI / 180)) with ((fsin x - sin x) + (sin x - sin (a * PI / 180))) by ring. apply abs_tri; auto. eapply Rle_trans; [apply sin_near|auto].
      + replace (fcos x - cos (a * PI / 180)) with ((fcos x - cos x) + (cos x - cos (a * PI / 180))) by ring. apply abs_tri; auto. eapply Rle_trans; [apply cos_near|auto].
    - destruct (TW a N) as (S1 & C1). exists (sin a), (cos a). split; auto. unfold D. repeat split; [lra|lra|apply sc].
  Qed.

  (** ** One movement *)
  Hypothesis D1 : D <= / 4.
  Lemma turn_matrix : forall o th, gentle rnd A o -> (forall x y z, o <> Move x y z) -> fl_motion_matrix rnd fsin fcos o = Some th ->
    exists t, motion_matrix o = Some t /\ isometry t /\ turning th /\ forall v, vnorm (vsub (mapply th v) (mapply t v)) <= 2 * D * vnorm (flat v).
  Proof.
    assert (D0' : 0 <= D) by (unfold D; nra).
    assert (ONE : forall s k s' k', Rabs (s - s') <= D -> Rabs (k - k') <= D -> s' * s' + k' * k' = 1 -> k * k + s * s <= 4).
    { intros s k s' k' S K E. apply row_norm2.
      - assert (Rabs k' <= 1) by (apply Rabs_le; nra). replace k with ((k - k') + k') by ring. eapply Rle_trans; [apply abs_tri; eauto|lra].
      - assert (Rabs s' <= 1) by (apply Rabs_le; nra). replace s with ((s - s') + s') by ring. eapply Rle_trans; [apply abs_tri; eauto|lra]. }
    intros o th G NM H. destruct o as [x y z|x y z|a un|a un|a un|m]; cbn [gentle] in G; try destruct G; try (exfalso; eapply NM; reflexivity).
    all: cbn [fl_motion_matrix] in H; destruct (fl_sin_cos rnd fsin fcos a un) as [[s k]|] eqn:F; [|discriminate]; injection H as <-.
    all: destruct (trig_error a un s k (conj H0 H1) F) as (s' & k' & SC & ES & EK & ON); pose proof (ONE _ _ _ _ ES EK ON) as Q.
    all: cbn [motion_matrix]; rewrite SC; eexists; split; [reflexivity|]; split; [first [apply rotx_iso|apply roty_iso|apply rotz_iso]; auto|].
    all: split; [unfold turning; cbn [row0 row1 row2 row3 vw]; repeat split; auto; apply norm_two; unfold vdot; cbn [vx vy vz vw]; lra|].
    all: intros [p q r w]; apply norm_le; [lra|]; unfold flat, vset_w, vsub, vadd, vopp, vscale, mapply, vdot; cbn [vx vy vz vw row0 row1 row2 row3].
    - pose proof (two_entries _ _ q r D EK ES) as T. eapply Rle_trans; [|eapply Rle_trans; [exact T|]]; [right; ring|]. pose proof (Rle_0_sqr p). unfold Rsqr in *. apply Rmult_le_compat_l; [nra|lra].
    - pose proof (two_entries _ _ r p D EK ES) as T. eapply Rle_trans; [|eapply Rle_trans; [exact T|]]; [right; ring|]. pose proof (Rle_0_sqr q). unfold Rsqr in *. apply Rmult_le_compat_l; [nra|lra].
    - pose proof (two_entries _ _ p q D EK ES) as T. eapply Rle_trans; [|eapply Rle_trans; [exact T|]]; [right; ring|]. pose proof (Rle_0_sqr r). unfold Rsqr in *. apply Rmult_le_compat_l; [nra|lra].
  Qed.
  Lemma iso_norm : forall t v, isometry t -> vw v = 0 -> vnorm (mapply t v) = vnorm v.
  Proof. intros t v (_ & I & _) W. unfold vnorm. rewrite I; auto. Qed.
  Lemma flat_close : forall v w, vnorm (flat v) <= vnorm (flat w) + vnorm (vsub v w).
  Proof.
    intros v w. assert (E : flat v = vadd (flat w) (flat (vsub v w))) by (destruct v, w; unfold flat, vset_w, vsub, vadd, vopp, vscale; cbn; f_equal; ring).
    rewrite E. eapply Rle_trans; [apply vnorm_add|]. apply Rplus_le_compat_l. apply sqrt_le_1_alt. unfold vdot, flat, vset_w; cbn. pose proof (Rle_0_sqr (vw v + -1 * vw w)) as S. unfold Rsqr in S. lra.
  Qed.
  Lemma turn_step : forall th t v w v' e X, isometry t -> turning th -> (forall v, vnorm (vsub (mapply th v) (mapply t v)) <= 2 * D * vnorm (flat v)) ->
    rnd (vw v) = vw v -> vw w = vw v -> vnorm (vsub v w) <= e -> vnorm (flat w) <= X -> 16 * eta <= u * X -> fl_image rnd th v v' ->
    vw v' = vw v /\ X + vnorm (vsub v' (mapply t w)) <= (1 + c) * (X + e).
  Proof.
    intros th t v w v' e X I TH DT N W EV FW EX FI. destruct (turn_image rnd LN u eta U0 E0 RW U1 th v v' TH N FI) as (W' & B1). split; auto.
    pose proof (DT v) as B2. assert (B3 : vnorm (vsub (mapply t v) (mapply t w)) = vnorm (vsub v w)).
    { rewrite <- (iso_norm t (vsub v w) I); [|unfold vsub, vadd, vopp, vscale; cbn; rewrite W; ring]. f_equal. vring. }
    pose proof (flat_close v w) as FC. pose proof (vnorm_nonneg (flat v)) as F0.
    assert (S : vsub v' (mapply t w) = vadd (vsub v' (mapply th v)) (vadd (vsub (mapply th v) (mapply t v)) (vsub (mapply t v) (mapply t w)))) by vring.
    rewrite S. pose proof (vnorm_add (vsub v' (mapply th v)) (vadd (vsub (mapply th v) (mapply t v)) (vsub (mapply t v) (mapply t w)))) as T1.
    pose proof (vnorm_add (vsub (mapply th v) (mapply t v)) (vsub (mapply t v) (mapply t w))) as T2.
    assert (D0' : 0 <= D) by (unfold D; nra). assert (E00 : 0 <= e) by (eapply Rle_trans; [apply vnorm_nonneg|exact EV]).
    assert (F1 : vnorm (flat v) <= X + e) by lra.
    assert (G1 : (20 * u + 2 * D) * vnorm (flat v) <= (20 * u + 2 * D) * (X + e)) by (apply Rmult_le_compat_l; lra).
    unfold c, per_movement. fold D. assert (0 <= u * e) by nra. lra.
  Qed.
  Lemma move_step : forall x y z v w v' e X, rnd x = x -> rnd y = y -> rnd z = z -> nums rnd v -> vw v = 1 -> vw w = 1 ->
    vnorm (vsub v w) <= e -> vnorm (flat (mapply (shift_mat x y z) w)) <= X -> 16 * eta <= u * X -> fl_image rnd (shift_mat x y z) v v' ->
    vw v' = 1 /\ X + vnorm (vsub v' (mapply (shift_mat x y z) w)) <= (1 + c) * (X + e).
  Proof.
    intros x y z v w v' e X NX NY NZ N V1 W1 EV FW EX FI. destruct LN as (R0' & R1' & RI).
    destruct (move_image rnd LN x y z v v' NX NY NZ N FI) as (_ & E). rewrite (E V1). split; [reflexivity|].
    set (g := V4 (vx v + x) (vy v + y) (vz v + z) 0). set (h := flat (mapply (shift_mat x y z) w)) in *.
    assert (Q : vsub (V4 (rnd (vx v + x)) (rnd (vy v + y)) (rnd (vz v + z)) 1) (mapply (shift_mat x y z) w) = vsub (vround rnd g) h).
    { unfold g, h, flat, vset_w, vsub, vadd, vopp, vscale, vround, mapply, shift_mat, vdot; cbn. rewrite R0', W1. f_equal; ring. }
    rewrite Q. assert (K : vnorm (vsub g h) <= e).
    { replace (vsub g h) with (vsub v w); [auto|]. unfold g, h, flat, vset_w, vsub, vadd, vopp, vscale, mapply, shift_mat, vdot; cbn. rewrite V1, W1. f_equal; ring. }
    pose proof (vround_at rnd u eta U0 E0 RW _ _ _ K) as B. assert (D0' : 0 <= D) by (unfold D; nra).
    assert (E00 : 0 <= e) by (eapply Rle_trans; [apply vnorm_nonneg|exact EV]). assert (X0 : 0 <= X) by (eapply Rle_trans; [apply vnorm_nonneg|exact FW]).
    assert (u * vnorm h <= u * X) by (apply Rmult_le_compat_l; auto). assert (0 <= D * (X + e)) by (apply Rmult_le_pos; lra). assert (0 <= u * e) by nra. assert (0 <= u * X) by nra.
    unfold c, per_movement. fold D. lra.
  Qed.

  (** ** Histories *)
  Lemma composed_snoc : forall os o t m, composed os = Some m -> motion_matrix o = Some t -> composed (os ++ [o]) = Some (mmul t m).
  Proof.
    induction os as [|x os IH]; intros o t m C M; cbn [composed app] in *.
    - injection C as <-. rewrite M. f_equal. rewrite mmul_mid_l, mmul_mid_r. reflexivity.
    - destruct (motion_matrix x) as [a|]; [|discriminate]. destruct (composed os) as [b|] eqn:CB; [|discriminate]. injection C as <-.
      rewrite (IH o t b eq_refl M). f_equal. apply mmul_assoc.
  Qed.
  Lemma within_prefix : forall P os o, stays_within P (os ++ [o]) -> stays_within P os.
  Proof. intros P os o H before after m E C. apply (H before (after ++ [o]) m); auto. rewrite E, app_assoc. reflexivity. Qed.

  (** the state of an object that exact arithmetic would have given the matrix [m] *)
  Definition near_to (n : nat) (os : list motion) (w m : mat) : Prop :=
    row3 w = V4 0 0 0 1 /\ nums rnd (row0 w) /\ nums rnd (row1 w) /\ nums rnd (row2 w) /\ nums rnd (row3 w) /\ isometry m /\
    vnorm (vsub (row0 (mtrans w)) (row0 (mtrans m))) <= drift c n /\ vnorm (vsub (row1 (mtrans w)) (row1 (mtrans m))) <= drift c n /\
    vnorm (vsub (row2 (mtrans w)) (row2 (mtrans m))) <= drift c n /\
    forall P, 16 * eta <= u * P -> stays_within P os -> vnorm (vsub (row3 (mtrans w)) (row3 (mtrans m))) <= drift c n * P.

  Lemma affine_bottom : forall m, affine m -> row3 m = V4 0 0 0 1.
  Proof. intros m H. exact H. Qed.
  Lemma iso_mmul : forall a b, isometry a -> isometry b -> isometry (mmul a b).
  Proof.
    intros a b (A1' & A2 & A3) (B1 & B2 & B3). split; [apply affine_mmul; auto|]. split.
    - intros v W. rewrite mapply_mmul, A2, B2; auto. rewrite affine_w; auto.
    - rewrite mdet_mmul. apply Rmult_integral_contrapositive_currified; auto.
  Qed.
  Lemma iso_column : forall m, isometry m -> vnorm (row0 (mtrans m)) = 1 /\ vnorm (row1 (mtrans m)) = 1 /\ vnorm (row2 (mtrans m)) = 1 /\
    vw (row0 (mtrans m)) = 0 /\ vw (row1 (mtrans m)) = 0 /\ vw (row2 (mtrans m)) = 0 /\ vw (row3 (mtrans m)) = 1.
  Proof.
    intros m I. pose proof (affine_bottom m (proj1 I)) as B.
    assert (E0' : row0 (mtrans m) = mapply m (vector 1 0 0)) by vring. assert (E1' : row1 (mtrans m) = mapply m (vector 0 1 0)) by vring.
    assert (E2' : row2 (mtrans m) = mapply m (vector 0 0 1)) by vring.
    assert (N : forall x y z, x * x + y * y + z * z = 1 -> vnorm (vector x y z) = 1).
    { intros x y z H. unfold vnorm, vdot, vector; cbn. replace (x * x + y * y + z * z + 0 * 0) with 1 by (rewrite <- H; ring). apply sqrt_1. }
    repeat split; try (cbn [mtrans row0 row1 row2 row3 vw]; rewrite B; reflexivity).
    - rewrite E0', iso_norm, N; auto; ring.
    - rewrite E1', iso_norm, N; auto; ring.
    - rewrite E2', iso_norm, N; auto; ring.
  Qed.
  Lemma flat_flat : forall v, vw v = 0 -> flat v = v.
  Proof. intros [a b d e] H. cbn in H. subst e. reflexivity. Qed.
  Lemma c_nonneg : 0 <= c.
  Proof. unfold c, per_movement. nra. Qed.
  Lemma drift_S : forall n, 1 + drift c (S n) = (1 + c) * (1 + drift c n).
  Proof. intro n. unfold drift. simpl. ring. Qed.
  Lemma drift_nonneg : forall n, 0 <= drift c n.
  Proof. intro n. unfold drift. pose proof c_nonneg as C. pose proof (pow_R1_Rle (1 + c) n ltac:(lra)). lra. Qed.
  Lemma rows_nums : forall w, nums rnd (row0 (mtrans w)) -> nums rnd (row1 (mtrans w)) -> nums rnd (row2 (mtrans w)) -> nums rnd (row3 (mtrans w)) ->
    nums rnd (row0 w) /\ nums rnd (row1 w) /\ nums rnd (row2 w) /\ nums rnd (row3 w).
  Proof. intros w (a & b & d & e) (a' & b' & d' & e') (a2 & b2 & d2 & e2) (a3 & b3 & d3 & e3). repeat split; auto. Qed.
  Lemma columns_nums : forall w, nums rnd (row0 w) -> nums rnd (row1 w) -> nums rnd (row2 w) -> nums rnd (row3 w) ->
    nums rnd (row0 (mtrans w)) /\ nums rnd (row1 (mtrans w)) /\ nums rnd (row2 (mtrans w)) /\ nums rnd (row3 (mtrans w)).
  Proof. intros w (a & b & d & e) (a' & b' & d' & e') (a2 & b2 & d2 & e2) (a3 & b3 & d3 & e3). repeat split; auto. Qed.
  Lemma bottom_of : forall w, vw (row0 (mtrans w)) = 0 -> vw (row1 (mtrans w)) = 0 -> vw (row2 (mtrans w)) = 0 -> vw (row3 (mtrans w)) = 1 -> row3 w = V4 0 0 0 1.
  Proof. intros w a b d e. apply v4_eq; auto. Qed.
  Lemma small_eta : 16 * eta <= u * 1.
  Proof. lra. Qed.

  Lemma here_bound : forall P os m, stays_within P os -> composed os = Some m -> vw (row3 (mtrans m)) = 1 -> vnorm (flat (row3 (mtrans m))) <= P.
  Proof.
    intros P os m H C W. pose proof (H os [] m ltac:(rewrite app_nil_r; auto) C) as B.
    replace (flat (row3 (mtrans m))) with (vsub (mapply m (point 0 0 0)) (point 0 0 0)); auto.
    cbn [mtrans row3 vw] in W. apply v4_eq; unfold flat, vset_w, vsub, vadd, vopp, vscale, mapply, mtrans, vdot, point; cbn; try ring. rewrite W. ring.
  Qed.
  Lemma near_step : forall n os w m o th w', gentle rnd A o -> fl_motion_matrix rnd fsin fcos o = Some th -> composed os = Some m -> near_to n os w m ->
    fl_matmul rnd th w w' -> exists t, motion_matrix o = Some t /\ near_to (S n) (os ++ [o]) w' (mmul t m).
  Proof.
    intros n os w m o th w' G F CM (B & N0 & N1 & N2 & N3 & I & C0 & C1 & C2 & C3) (I0 & I1 & I2 & I3).
    destruct (columns_nums w N0 N1 N2 N3) as (M0 & M1 & M2 & M3).
    pose proof (image_numbers rnd LN _ _ _ I0) as Q0. pose proof (image_numbers rnd LN _ _ _ I1) as Q1.
    pose proof (image_numbers rnd LN _ _ _ I2) as Q2. pose proof (image_numbers rnd LN _ _ _ I3) as Q3.
    destruct (iso_column m I) as (L0 & L1 & L2 & W0 & W1 & W2 & W3).
    assert (V0 : vw (row0 (mtrans w)) = 0) by (cbn [mtrans row0 vw]; rewrite B; reflexivity).
    assert (V1 : vw (row1 (mtrans w)) = 0) by (cbn [mtrans row1 vw]; rewrite B; reflexivity).
    assert (V2 : vw (row2 (mtrans w)) = 0) by (cbn [mtrans row2 vw]; rewrite B; reflexivity).
    assert (V3 : vw (row3 (mtrans w)) = 1) by (cbn [mtrans row3 vw]; rewrite B; reflexivity).
    destruct (rows_nums w' Q0 Q1 Q2 Q3) as (X0 & X1 & X2 & X3). pose proof c_nonneg as CN. pose proof (drift_nonneg n) as DN. pose proof (drift_S n) as DS.
    assert (CO : forall t, row0 (mtrans (mmul t m)) = mapply t (row0 (mtrans m)) /\ row1 (mtrans (mmul t m)) = mapply t (row1 (mtrans m)) /\
      row2 (mtrans (mmul t m)) = mapply t (row2 (mtrans m)) /\ row3 (mtrans (mmul t m)) = mapply t (row3 (mtrans m))) by (intro t; repeat split; vring).
    assert (MV : (exists x y z, o = Move x y z) \/ forall x y z, o <> Move x y z) by (destruct o; eauto; right; intros; discriminate).
    destruct MV as [(x & y & z & ->)|NM].
    - destruct G as (GX & GY & GZ). cbn [fl_motion_matrix] in F. injection F as <-. fold (shift_mat x y z) in *. exists (shift_mat x y z). split; [reflexivity|].
      assert (CS : composed (os ++ [Move x y z]) = Some (mmul (shift_mat x y z) m)) by (apply composed_snoc; auto).
      assert (IS : isometry (mmul (shift_mat x y z) m)) by (apply iso_mmul; auto; apply move_iso).
      assert (SH : forall v, vw v = 0 -> mapply (shift_mat x y z) v = v) by (intros [p q r s] H; cbn in H; subst s; apply v4_eq; unfold mapply, shift_mat, vdot; cbn; ring).
      destruct (CO (shift_mat x y z)) as (K0 & K1 & K2 & K3).
      pose proof (proj1 (move_image rnd LN x y z _ _ GX GY GZ M0 I0) V0) as Y0. pose proof (proj1 (move_image rnd LN x y z _ _ GX GY GZ M1 I1) V1) as Y1.
      pose proof (proj1 (move_image rnd LN x y z _ _ GX GY GZ M2 I2) V2) as Y2.
      assert (V3' : vw (row3 (mtrans w')) = 1) by (rewrite (proj2 (move_image rnd LN x y z _ _ GX GY GZ M3 I3) V3); reflexivity).
      assert (DD : drift c n <= drift c (S n)) by nra.
      unfold near_to. split; [apply bottom_of; try rewrite Y0; try rewrite Y1; try rewrite Y2; auto|]. do 5 (split; auto).
      rewrite K0, K1, K2, K3, Y0, Y1, Y2, !SH by auto. do 3 (split; [lra|]).
      intros P EP SW. pose proof (C3 P EP (within_prefix _ _ _ SW)) as C3'.
      destruct (iso_column _ IS) as (_ & _ & _ & _ & _ & _ & W3'). pose proof (here_bound P _ _ SW CS W3') as HB. rewrite K3 in HB.
      destruct (move_step x y z _ _ _ _ P GX GY GZ M3 V3 W3 C3' HB EP I3) as (_ & R). nra.
    - destruct (turn_matrix o th G NM F) as (t & MO & IT & TH & DT). exists t. split; auto.
      assert (IS : isometry (mmul t m)) by (apply iso_mmul; auto). destruct (CO t) as (K0 & K1 & K2 & K3). pose proof small_eta as SE.
      pose proof (proj2 (proj2 (proj2 M0))) as Z0. pose proof (proj2 (proj2 (proj2 M1))) as Z1. pose proof (proj2 (proj2 (proj2 M2))) as Z2. pose proof (proj2 (proj2 (proj2 M3))) as Z3.
      destruct (turn_step th t _ (row0 (mtrans m)) _ _ 1 IT TH DT Z0 ltac:(rewrite V0; exact W0) C0 ltac:(rewrite flat_flat, L0 by auto; lra) SE I0) as (S0 & R0).
      destruct (turn_step th t _ (row1 (mtrans m)) _ _ 1 IT TH DT Z1 ltac:(rewrite V1; exact W1) C1 ltac:(rewrite flat_flat, L1 by auto; lra) SE I1) as (S1 & R1).
      destruct (turn_step th t _ (row2 (mtrans m)) _ _ 1 IT TH DT Z2 ltac:(rewrite V2; exact W2) C2 ltac:(rewrite flat_flat, L2 by auto; lra) SE I2) as (S2 & R2).
      destruct (turn_image rnd LN u eta U0 E0 RW U1 th _ _ TH Z3 I3) as (S3 & _).
      unfold near_to. split; [apply bottom_of; congruence|]. do 5 (split; auto). rewrite K0, K1, K2, K3. do 3 (split; [nra|]).
      intros P EP SW. pose proof (C3 P EP (within_prefix _ _ _ SW)) as C3'. pose proof (here_bound P _ _ (within_prefix _ _ _ SW) CM W3) as HB.
      destruct (turn_step th t _ (row3 (mtrans m)) _ _ P IT TH DT Z3 ltac:(rewrite V3; exact W3) C3' HB EP I3) as (_ & R). nra.
  Qed.

  Definition reports (n : nat) (os : list motion) (st : fl_object) (m : mat) : Prop :=
    near_to n os (fl_world st) m /\ fl_position st = row3 (mtrans (fl_world st)) /\ vnorm (vsub (fl_orientation st) (mapply m (vector 0 0 1))) <= 2 * drift c n + 20 * u.
  Lemma near_handler : forall n os w m r, near_to n os w m -> drift c n <= / 2 -> fl_handler rnd w r ->
    exists st, r = Some st /\ fl_world st = w /\ reports n os st m.
  Proof.
    intros n os w m r NT HD H. pose proof NT as (B & N0 & N1 & N2 & N3 & I & _ & _ & C2 & _).
    destruct (iso_column m I) as (_ & _ & L2 & _ & _ & W2 & _). pose proof (drift_nonneg n) as DN.
    assert (AX : forall v, fl_image rnd w (vector 0 0 1) v -> v = row2 (mtrans w)) by (intros v Hv; apply (proj2 (image_axis rnd LN w v N0 N1 N2 N3)); auto).
    set (d := row2 (mtrans w)) in *. set (e := row2 (mtrans m)) in *.
    assert (DB : / 2 <= vnorm d <= 3 / 2). { pose proof (norm_at d e _ C2) as Q. rewrite L2 in Q. lra. }
    assert (DQ : / 4 <= vdot d d) by (rewrite <- vnorm_sqr; nra).
    assert (SZ : sizeable u eta d) by (split; [lra|]; nra).
    assert (NB : forall s, fl_norm rnd d s -> rltb s (rnd (1 / 10000000)) = false).
    { intros s Hs. pose proof (norm_error rnd u eta U0 E0 RW U1 E1 d s SZ Hs) as Q. apply abs_le_both in Q.
      pose proof (RW (1 / 10000000)) as T. apply abs_le_both in T. rewrite (Rabs_right (1 / 10000000)) in T by lra.
      apply rltb_false. assert (16 * u * vnorm d <= / 10) by nra. lra. }
    inversion H as [p d' s Hp Hd Hs LT E|d' s Hd Hs LT E]; subst r.
    - apply AX in Hd. subst d'. eexists. split; [reflexivity|]. split; [reflexivity|]. split; [exact NT|]. split.
      + cbn [fl_position fl_world]. exact (proj1 (image_axis rnd LN w p N0 N1 N2 N3) Hp).
      + cbn [fl_orientation]. assert (FN : fl_normalize rnd d (vround rnd (vscale (/ s) d))) by (exists s; split; auto).
        pose proof (normalize_close rnd u eta U0 E0 RW U1 E1 d _ SZ FN) as NC.
        assert (EM : mapply m (vector 0 0 1) = e) by (unfold e; vring). rewrite EM.
        set (o := vround rnd (vscale (/ s) d)) in *.
        assert (HD1 : vnorm (vsub (hat d) d) <= drift c n).
        { unfold hat. replace (vsub (vscale (/ vnorm d) d) d) with (vscale (/ vnorm d - 1) d) by vring. rewrite vnorm_scale.
          replace (Rabs (/ vnorm d - 1) * vnorm d) with (Rabs ((/ vnorm d - 1) * vnorm d)) by (rewrite Rabs_mult, (Rabs_right (vnorm d)) by lra; reflexivity).
          replace ((/ vnorm d - 1) * vnorm d) with (1 - vnorm d) by (field; lra). rewrite <- L2, <- Rabs_Ropp. replace (- (vnorm e - vnorm d)) with (vnorm d - vnorm e) by ring.
          eapply Rle_trans; [apply vnorm_close|exact C2]. }
        replace (vsub o e) with (vadd (vsub o (hat d)) (vadd (vsub (hat d) d) (vsub d e))) by vring.
        eapply Rle_trans; [apply vnorm_add|]. pose proof (vnorm_add (vsub (hat d) d) (vsub d e)). lra.
    - apply AX in Hd. subst d'. rewrite (NB s Hs) in LT. discriminate.
  Qed.
  Theorem history_near : forall os r, fl_history rnd fsin fcos os r -> Forall (gentle rnd A) os -> drift c (length os) <= / 2 ->
    exists st m, r = Some st /\ composed os = Some m /\ reports (length os) os st m.
  Proof.
    destruct LN as (R0' & R1' & RI).
    intros os r H. induction H as [|os st o r H IH (th & w & F & MM & HR)]; intros G HD.
    - exists fl_new, mid. split; auto. split; auto. assert (NM : isometry mid).
      { split; [reflexivity|]. split; [intros; rewrite mapply_mid; reflexivity|]. unfold mdet, mid; cbn. lra. }
      assert (Z : forall v, vnorm (vsub v v) <= drift c (length (@nil motion))).
      { intro v. unfold drift; cbn. replace (vsub v v) with (vscale 0 v) by vring. rewrite vnorm_scale, Rabs_R0. lra. }
      assert (ZN : nums rnd (V4 1 0 0 0) /\ nums rnd (V4 0 1 0 0) /\ nums rnd (V4 0 0 1 0) /\ nums rnd (V4 0 0 0 1)) by (repeat split; cbn; auto).
      destruct ZN as (z0 & z1 & z2 & z3). split; [|split].
      + unfold near_to, fl_new; cbn [fl_world]. do 6 (split; auto). do 3 (split; [apply Z|]). intros P _ _. eapply Rle_trans; [apply Z|]. unfold drift; cbn. lra.
      + reflexivity.
      + cbn [fl_orientation fl_new]. rewrite mapply_mid. pose proof (Z (vector 0 0 1)). unfold drift in *; cbn in *. lra.
    - apply Forall_app in G. destruct G as (G & GO). inversion GO as [|? ? GO' _]; subst. rewrite app_length in *. cbn [length] in *.
      replace (length os + 1)%nat with (S (length os)) in * by lia. pose proof (drift_S (length os)) as DS. pose proof (drift_nonneg (length os)) as DN. pose proof c_nonneg as CN.
      destruct IH as (st0 & m & E & CM & (NT & _)); auto; [nra|]. injection E as <-.
      destruct (near_step _ _ _ _ _ _ _ GO' F CM NT MM) as (t & MO & NT').
      destruct (near_handler _ _ _ _ _ NT' HD HR) as (st' & -> & WE & RP). exists st', (mmul t m). split; auto. split; auto. apply composed_snoc; auto.
  Qed.
End Drift.

(** a vector without translation *)
Lemma directions_near : forall w m e, 0 <= e -> vnorm (vsub (row0 (mtrans w)) (row0 (mtrans m))) <= e -> vnorm (vsub (row1 (mtrans w)) (row1 (mtrans m))) <= e ->
  vnorm (vsub (row2 (mtrans w)) (row2 (mtrans m))) <= e -> forall v, vw v = 0 -> vnorm (vsub (mapply w v) (mapply m v)) <= 2 * e * vnorm v.
Proof.
  intros w m e E0 H0 H1 H2 [a b d z] W. cbn in W. subst z. set (v := V4 a b d 0).
  assert (S : vsub (mapply w v) (mapply m v) = vadd (vscale a (vsub (row0 (mtrans w)) (row0 (mtrans m)))) (vadd (vscale b (vsub (row1 (mtrans w)) (row1 (mtrans m)))) (vscale d (vsub (row2 (mtrans w)) (row2 (mtrans m)))))) by (unfold v; vring).
  rewrite S. eapply Rle_trans; [apply vnorm_add|]. pose proof (vnorm_add (vscale b (vsub (row1 (mtrans w)) (row1 (mtrans m)))) (vscale d (vsub (row2 (mtrans w)) (row2 (mtrans m))))) as T.
  rewrite !vnorm_scale in *. pose proof (Rabs_pos a) as PA. pose proof (Rabs_pos b) as PB. pose proof (Rabs_pos d) as PD.
  assert (K : Rabs a + Rabs b + Rabs d <= 2 * vnorm v).
  { pose proof (vdot_le (V4 (Rabs a) (Rabs b) (Rabs d) 0) (V4 1 1 1 1)) as Q. unfold vdot in Q; cbn in Q.
    assert (N1 : vnorm (V4 1 1 1 1) = 2) by (unfold vnorm, vdot; cbn; replace (1 * 1 + 1 * 1 + 1 * 1 + 1 * 1) with (2 * 2) by ring; apply sqrt_square; lra).
    assert (N2 : vnorm (V4 (Rabs a) (Rabs b) (Rabs d) 0) = vnorm v). { rewrite <- (vnorm_abs v). unfold v, vabs; cbn. rewrite Rabs_R0. reflexivity. }
    rewrite N1, N2 in Q. lra. }
  set (x := vnorm (vsub (row0 (mtrans w)) (row0 (mtrans m)))) in *. set (y := vnorm (vsub (row1 (mtrans w)) (row1 (mtrans m)))) in *. set (z := vnorm (vsub (row2 (mtrans w)) (row2 (mtrans m)))) in *.
  assert (Rabs a * x <= Rabs a * e) by (apply Rmult_le_compat_l; auto). assert (Rabs b * y <= Rabs b * e) by (apply Rmult_le_compat_l; auto). assert (Rabs d * z <= Rabs d * e) by (apply Rmult_le_compat_l; auto).
  assert (e * (Rabs a + Rabs b + Rabs d) <= e * (2 * vnorm v)) by (apply Rmult_le_compat_l; auto). lra.
Qed.

(** ** The drift of an object *)
Theorem objects_drift : forall rnd fsin fcos u eta delta A, 0 <= u <= / 1000000 -> 0 <= eta <= u * / 1000000 -> rounds_within u eta rnd -> leaves_numbers rnd ->
  0 <= delta -> trig_within delta rnd fsin fcos -> 1 <= A ->
  forall os r, Forall (gentle rnd A) os -> fl_history rnd fsin fcos os r -> let e := drift (per_movement u delta A) (length os) in e <= / 2 ->
  exists st m, r = Some st /\ composed os = Some m /\
    (forall P, 16 * eta <= u * P -> stays_within P os -> vnorm (vsub (fl_position st) (mapply m (point 0 0 0))) <= e * P) /\
    vnorm (vsub (fl_orientation st) (mapply m (vector 0 0 1))) <= 2 * e + 20 * u /\
    (forall v, vw v = 0 -> vnorm (vsub (mapply (fl_world st) v) (mapply m v)) <= 2 * e * vnorm v) /\
    row3 (fl_world st) = V4 0 0 0 1.
Proof.
  intros rnd fsin fcos u eta delta A (U0 & U1) (E0 & E1) RW LN D0 TW A1 os r G H e HE.
  assert (K : exists st m, r = Some st /\ composed os = Some m /\ reports rnd u eta delta A (length os) os st m).
  { destruct os as [|o os].
    - destruct (Rle_dec (delta + 5 * u * A) (/ 4)) as [Q|Q].
      + exact (history_near rnd fsin fcos u eta delta A U0 U1 E0 E1 RW LN D0 TW A1 Q [] r H G HE).
      + (* no movement: the sine and cosine do not matter *)
        inversion H as [EQ|os' st o r' H' F EQ]; [|destruct os'; discriminate].
        assert (T0 : trig_within 0 rnd sin cos) by (intros x _; rewrite !Rminus_diag_eq by auto; rewrite Rabs_R0; lra).
        destruct (history_near rnd sin cos u eta 0 1 U0 U1 E0 E1 RW LN (Rle_refl 0) T0 (Rle_refl 1) ltac:(lra) [] (Some fl_new) (Fl_start _ _ _) (Forall_nil _)) as (st & m & E & C & RP).
        { unfold drift; cbn. lra. }
        injection E as <-. exists fl_new, m. split; auto.
    - assert (Q : delta + 5 * u * A <= / 4).
      { unfold e, drift in HE. cbn [length pow] in HE. assert (0 <= per_movement u delta A) by (unfold per_movement; nra).
        pose proof (pow_R1_Rle (1 + per_movement u delta A) (length os) ltac:(lra)) as PW.
        assert (1 + per_movement u delta A <= (1 + per_movement u delta A) * (1 + per_movement u delta A) ^ length os) by nra.
        assert (P2 : per_movement u delta A <= / 2) by lra. unfold per_movement in P2. lra. }
      exact (history_near rnd fsin fcos u eta delta A U0 U1 E0 E1 RW LN D0 TW A1 Q _ r H G HE). }
  destruct K as (st & m & R & C & ((B & N0 & N1 & N2 & N3 & I & C0 & C1 & C2 & C3) & PO & OR)). exists st, m. split; auto. split; auto. split; [|split; [|split]]; auto.
  - intros P EP SW. rewrite PO. replace (mapply m (point 0 0 0)) with (row3 (mtrans m)) by vring. apply C3; auto.
  - apply directions_near; auto. unfold e, drift. assert (0 <= per_movement u delta A) by (unfold per_movement; nra). pose proof (pow_R1_Rle (1 + per_movement u delta A) (length os) ltac:(lra)). lra.
Qed.
