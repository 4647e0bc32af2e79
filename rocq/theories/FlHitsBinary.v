(** * FlHitsBinary: binary64, and concrete hits *)
From Coq Require Import Reals List Bool ZArith Permutation Lra Lia.
Import ListNotations.
From Flocq Require Import Core.
From Verif Require Import XR XRFacts Lin Fl SpecFl FlFacts FlProps FlBinary FlHits SpecFlHits.
Open Scope R_scope.

(** sizes between 2^-255 and 2^255 *)
Definition lo64 : R := bpow radix2 (-255).
Lemma clear64 : clear lo64 u64 eta64.
Proof.
  split; [split; [apply bpow_gt_0|]|split; [exact u64_small|]].
  - apply Rle_trans with (bpow radix2 (-30)); [apply bpow_le; lia|]. change (bpow radix2 (-30)) with (/ 1073741824). lra.
  - split; [apply bpow_ge_0|]. unfold lo64, u64, eta64. replace (bpow radix2 (-255) ^ 4) with (bpow radix2 (-1020)).
    + rewrite <- bpow_plus. apply bpow_le. lia.
    + cbn [pow]. rewrite Rmult_1_r. rewrite <- !bpow_plus. reflexivity.
Qed.
Lemma u64_pos : 0 < u64.
Proof. apply bpow_gt_0. Qed.
Lemma lo64_small : lo64 <= / 1000.
Proof. destruct clear64 as ((_ & H) & _). lra. Qed.

(** ** Sums of products of integers are exact *)
Lemma int_dot1 : forall a b, (Z.abs (a * b) < 2 ^ 53)%Z -> rdot binary64 [(IZR a, IZR b)] (IZR (a * b)).
Proof. intros a b H. rewrite <- (exact_int _ H), mult_IZR. apply Rdot_mul. Qed.
Lemma int_dotS : forall a b z l, (Z.abs (a * b + z) < 2 ^ 53)%Z -> rdot binary64 l (IZR z) -> rdot binary64 ((IZR a, IZR b) :: l) (IZR (a * b + z)).
Proof. intros a b z l H R. rewrite <- (exact_int _ H), plus_IZR, mult_IZR. apply (Rdot_fma binary64 _ l); [apply Permutation_refl|exact R]. Qed.
Lemma int_dot2 : forall a b c d, (Z.abs (c * d) < 2 ^ 53)%Z -> (Z.abs (a * b + c * d) < 2 ^ 53)%Z -> rdot binary64 [(IZR a, IZR b); (IZR c, IZR d)] (IZR (a * b + c * d)).
Proof. intros. apply int_dotS; auto. apply int_dot1; auto. Qed.
Lemma int_dot3 : forall a b c d e f, (Z.abs (e * f) < 2 ^ 53)%Z -> (Z.abs (c * d + e * f) < 2 ^ 53)%Z -> (Z.abs (a * b + (c * d + e * f)) < 2 ^ 53)%Z ->
  rdot binary64 [(IZR a, IZR b); (IZR c, IZR d); (IZR e, IZR f)] (IZR (a * b + (c * d + e * f))).
Proof. intros. apply int_dotS; auto. apply int_dot2; auto. Qed.
Lemma int_dot4 : forall a b c d e f g h, (Z.abs (g * h) < 2 ^ 53)%Z -> (Z.abs (e * f + g * h) < 2 ^ 53)%Z -> (Z.abs (c * d + (e * f + g * h)) < 2 ^ 53)%Z -> (Z.abs (a * b + (c * d + (e * f + g * h))) < 2 ^ 53)%Z ->
  rdot binary64 [(IZR a, IZR b); (IZR c, IZR d); (IZR e, IZR f); (IZR g, IZR h)] (IZR (a * b + (c * d + (e * f + g * h)))).
Proof. intros. apply int_dotS; auto. apply int_dot3; auto. Qed.
Definition ivec (x y z w : Z) : v4 := V4 (IZR x) (IZR y) (IZR z) (IZR w).

Lemma small_product : forall p q, (Z.abs p < 1000)%Z -> (Z.abs q < 1000)%Z -> (Z.abs (p * q) < 1000000)%Z.
Proof. intros p q P Q. rewrite Z.abs_mul. apply Z.lt_le_trans with (1000 * 1000)%Z; [|lia]. apply Z.mul_lt_mono_nonneg; auto using Z.abs_nonneg. Qed.
Lemma small_dot : forall p q p' q' p'' q'' p3 q3, (Z.abs p < 1000)%Z -> (Z.abs q < 1000)%Z -> (Z.abs p' < 1000)%Z -> (Z.abs q' < 1000)%Z -> (Z.abs p'' < 1000)%Z -> (Z.abs q'' < 1000)%Z -> (Z.abs p3 < 1000)%Z -> (Z.abs q3 < 1000)%Z ->
  rdot binary64 [(IZR p, IZR q); (IZR p', IZR q'); (IZR p'', IZR q''); (IZR p3, IZR q3)] (IZR (p * q + (p' * q' + (p'' * q'' + p3 * q3)))).
Proof.
  intros p q p' q' p'' q'' p3 q3 A1 A2 A3 A4 A5 A6 A7 A8. pose proof (small_product p q A1 A2). pose proof (small_product p' q' A3 A4). pose proof (small_product p'' q'' A5 A6). pose proof (small_product p3 q3 A7 A8).
  apply int_dot4; change (2 ^ 53)%Z with 9007199254740992%Z;
    generalize dependent (p * q)%Z; generalize dependent (p' * q')%Z; generalize dependent (p'' * q'')%Z; generalize dependent (p3 * q3)%Z; clear; intros; lia.
Qed.
Lemma int_image : forall (x0 y0 z0 w0 x1 y1 z1 w1 x2 y2 z2 w2 x3 y3 z3 w3 x y z w a b c d : Z),
  (x0 * x + (y0 * y + (z0 * z + w0 * w)) = a /\ x1 * x + (y1 * y + (z1 * z + w1 * w)) = b /\ x2 * x + (y2 * y + (z2 * z + w2 * w)) = c /\ x3 * x + (y3 * y + (z3 * z + w3 * w)) = d)%Z ->
  Forall (fun n => (Z.abs n < 1000)%Z) [x0; y0; z0; w0; x1; y1; z1; w1; x2; y2; z2; w2; x3; y3; z3; w3; x; y; z; w] ->
  fl_image binary64 (M4 (ivec x0 y0 z0 w0) (ivec x1 y1 z1 w1) (ivec x2 y2 z2 w2) (ivec x3 y3 z3 w3)) (ivec x y z w) (ivec a b c d).
Proof.
  intros x0 y0 z0 w0 x1 y1 z1 w1 x2 y2 z2 w2 x3 y3 z3 w3 x y z w a b c d (<- & <- & <- & <-) F. repeat (apply Forall_cons_iff in F; destruct F as (? & F)).
  unfold fl_image, pairs, coords, ivec. cbn [row0 row1 row2 row3 vx vy vz vw combine].
  refine (conj _ (conj _ (conj _ _))); apply small_dot; assumption.
Qed.

(** ** Roots that are integers are exact *)
Lemma ex : forall z, (Z.abs z < 9007199254740992)%Z -> binary64 (IZR z) = IZR z.
Proof. intros z H. apply exact_int. exact H. Qed.
Lemma int_roots : forall a b c k p n, (0 < a < 1000)%Z -> (Z.abs b < 1000)%Z -> (Z.abs c < 1000)%Z -> (0 <= k < 1000)%Z -> (b * b - 4 * a * c = k * k)%Z -> (Z.abs p < 1000)%Z -> (Z.abs n < 1000)%Z ->
  (2 * a * p = - b + k)%Z -> (2 * a * n = - b - k)%Z -> fl_roots binary64 (IZR a) (IZR b) (IZR c) (IZR (2 * a)) (IZR p) (IZR n).
Proof.
  intros a b c k p n A B C K D P N EP EN.
  assert (BB : (Z.abs (b * b) < 1000000)%Z) by (apply small_product; auto). assert (AC : (Z.abs (4 * a * c) < 4000000)%Z). { replace (4 * a * c)%Z with (4 * (a * c))%Z by ring. pose proof (small_product a c ltac:(lia) C). lia. }
  assert (KK : (Z.abs (k * k) < 1000000)%Z) by (apply small_product; lia).
  assert (E1 : fl_disc binary64 (IZR a) (IZR b) (IZR c) = IZR (k * k)).
  { unfold fl_disc. rewrite <- !mult_IZR. rewrite (ex (b * b)), (ex (4 * a)) by lia. rewrite <- mult_IZR. rewrite (ex (4 * a * c)) by lia. rewrite <- minus_IZR, D. apply ex. lia. }
  assert (E2 : binary64 (sqrt (Rmax 0 (IZR (k * k)))) = IZR k).
  { rewrite Rmax_right by (apply IZR_le; apply Z.square_nonneg). rewrite mult_IZR, sqrt_square by (apply IZR_le; lia). apply ex. lia. }
  assert (A0 : IZR (2 * a) <> 0) by (apply IZR_neq; lia).
  split; [rewrite E1; apply IZR_le; apply Z.square_nonneg|]. unfold fl_root. rewrite E1, E2. split.
  - replace (- IZR b + 1 * IZR k) with (IZR (2 * a * p)) by (rewrite EP, plus_IZR, opp_IZR; ring). rewrite (ex (2 * a * p)) by (rewrite EP; lia).
    replace (IZR (2 * a * p) / IZR (2 * a)) with (IZR p) by (rewrite (mult_IZR (2 * a) p); field; auto). rewrite ex by lia. reflexivity.
  - replace (- IZR b + -1 * IZR k) with (IZR (2 * a * n)) by (rewrite EN, minus_IZR, opp_IZR; ring). rewrite (ex (2 * a * n)) by (rewrite EN; lia).
    replace (IZR (2 * a * n) / IZR (2 * a)) with (IZR n) by (rewrite (mult_IZR (2 * a) n); field; auto). rewrite ex by lia. reflexivity.
Qed.

(** ** A sphere of radius 1 at (0, 0, 5), met along its axis from (0, 0, 2) *)
Definition moved : mat := M4 (ivec 1 0 0 0) (ivec 0 1 0 0) (ivec 0 0 1 (-5)) (ivec 0 0 0 1).
Lemma sphere_abc64 : fl_sphere_abc binary64 1 (ivec 0 0 (-3) 1) (ivec 0 0 1 0) 1 (-6) 8.
Proof.
  exists (-3), 9. split; [|split; [|split; [|split]]].
  - exact (int_dot3 0 0 0 0 1 1 ltac:(reflexivity) ltac:(reflexivity) ltac:(reflexivity)).
  - exact (int_dot3 0 0 0 0 1 (-3) ltac:(reflexivity) ltac:(reflexivity) ltac:(reflexivity)).
  - exact (int_dot3 0 0 0 0 (-3) (-3) ltac:(reflexivity) ltac:(reflexivity) ltac:(reflexivity)).
  - replace (2 * -3) with (IZR (-6)) by (rewrite <- mult_IZR; reflexivity). rewrite ex by reflexivity. reflexivity.
  - rewrite Rmult_1_l, (ex 1) by reflexivity. replace (9 - 1) with (IZR 8) by lra. rewrite ex by reflexivity. reflexivity.
Qed.
Lemma sphere_hits64 : fl_sphere_hits binary64 1 (ivec 0 0 (-3) 1) (ivec 0 0 1 0) 4 2.
Proof.
  exists 1, (-6), 8. split; [exact sphere_abc64|]. replace (binary64 (2 * 1)) with (IZR (2 * 1)) by (rewrite <- mult_IZR, ex by reflexivity; reflexivity).
  apply (int_roots 1 (-6) 8 2); try lia.
Qed.
Lemma sphere_image64 : fl_image binary64 moved (ivec 0 0 2 1) (ivec 0 0 (-3) 1) /\ fl_image binary64 moved (ivec 0 0 1 0) (ivec 0 0 1 0).
Proof. split; apply int_image; try (repeat split; reflexivity); repeat constructor; reflexivity. Qed.
Ltac absolute := repeat match goal with
  | |- context [Rabs ?x] => first [rewrite (Rabs_right x) by lra|rewrite (Rabs_left x) by lra] end.
Lemma moved_reach : reach moved (ivec 0 0 2 1) (ivec 0 0 1 0) 2 10.
Proof. unfold reach, terms, moved, ivec. cbn [row0 row1 row2 vx vy vz vw]. absolute. lra. Qed.
Lemma moved_entries : entries_below moved (/ lo64).
Proof.
  assert (K : 1000 <= / lo64). { pose proof lo64_small. destruct clear64 as ((P & _) & _). replace 1000 with (/ / 1000) by field. apply Rinv_le_contravar; auto. }
  intros r H. unfold moved in H. cbn [row0 row1 row2] in H. destruct H as [-> | [-> | ->]]; unfold ivec; cbn [vx vy vz vw]; absolute; lra.
Qed.
Lemma lo64_sqr : lo64 * lo64 <= / 1000 /\ 1000 <= / lo64 /\ 1000 <= / lo64 * / lo64.
Proof.
  pose proof lo64_small as S. destruct clear64 as ((P & _) & _). assert (K : 1000 <= / lo64) by (replace 1000 with (/ / 1000) by field; apply Rinv_le_contravar; auto).
  split; [|split]; auto; nra.
Qed.
Lemma sphere_case64 : fl_image binary64 moved (ivec 0 0 2 1) (ivec 0 0 (-3) 1) /\ fl_image binary64 moved (ivec 0 0 1 0) (ivec 0 0 1 0) /\
  either (fl_sphere_hits binary64 1 (ivec 0 0 (-3) 1) (ivec 0 0 1 0)) 2 /\ reach moved (ivec 0 0 2 1) (ivec 0 0 1 0) 2 10 /\ 0 <= 1 <= 10 /\ lo64 <= 10 /\ entries_below moved (/ lo64) /\
  lo64 * lo64 <= from_centre (ivec 0 0 1 0) <= / lo64 * / lo64.
Proof.
  split; [apply sphere_image64|]. split; [apply sphere_image64|]. split; [exists 4; right; exact sphere_hits64|]. split; [exact moved_reach|]. split; [lra|]. pose proof lo64_small. pose proof lo64_sqr as (A & B & C).
  split; [lra|]. split; [exact moved_entries|]. unfold from_centre, ivec. cbn [vx vy vz]. lra.
Qed.

(** ** A cylinder of radius 1 around the z axis, met from (-3, 0, 0) along x *)
Lemma mid_ints : mid = M4 (ivec 1 0 0 0) (ivec 0 1 0 0) (ivec 0 0 1 0) (ivec 0 0 0 1).
Proof. reflexivity. Qed.
Lemma mid_image64 : forall x y z w, (Z.abs x < 1000)%Z -> (Z.abs y < 1000)%Z -> (Z.abs z < 1000)%Z -> (Z.abs w < 1000)%Z -> fl_image binary64 mid (ivec x y z w) (ivec x y z w).
Proof. intros x y z w X Y Z W. rewrite mid_ints. apply int_image; [lia|]. repeat constructor; auto. Qed.
Lemma isclose1 : isclose 1 0 = false.
Proof. apply isclose0_false. unfold atol. rewrite Rabs_R1. lra. Qed.
Lemma side_hits64 : fl_side_hits binary64 1 (ivec (-3) 0 0 1) (ivec 1 0 0 0) 4 2.
Proof.
  exists 1, (-6), 8. split.
  - exists (-3), 9. split; [|split; [|split; [|split; [exact isclose1|split]]]].
    + exact (int_dot2 1 1 0 0 ltac:(reflexivity) ltac:(reflexivity)).
    + exact (int_dot2 1 (-3) 0 0 ltac:(reflexivity) ltac:(reflexivity)).
    + exact (int_dot2 (-3) (-3) 0 0 ltac:(reflexivity) ltac:(reflexivity)).
    + replace (2 * -3) with (IZR (-6)) by (rewrite <- mult_IZR; reflexivity). rewrite ex by reflexivity. reflexivity.
    + rewrite Rmult_1_l, (ex 1) by reflexivity. replace (9 - 1) with (IZR 8) by lra. rewrite ex by reflexivity. reflexivity.
  - replace (binary64 (binary64 (2 * 1) + 0)) with (IZR (2 * 1)) by (rewrite Rplus_0_r, <- mult_IZR, !ex by reflexivity; reflexivity). apply (int_roots 1 (-6) 8 2); try lia.
Qed.
Lemma mid_reach : forall x y z dx dy dz t S, Rabs x + Rabs (t * dx) <= S -> Rabs y + Rabs (t * dy) <= S -> Rabs z + Rabs (t * dz) <= S -> reach mid (V4 x y z 1) (V4 dx dy dz 0) t S.
Proof.
  intros. unfold reach, terms, mid. cbn [row0 row1 row2 vx vy vz vw]. rewrite !Rabs_R1, !Rabs_R0. repeat split; lra.
Qed.
Lemma mid_entries : entries_below mid (/ lo64).
Proof.
  pose proof lo64_sqr as (A & B & C). intros r H. unfold mid in H. cbn [row0 row1 row2] in H. destruct H as [-> | [-> | ->]]; cbn [vx vy vz vw]; absolute; lra.
Qed.
Lemma side_case64 : fl_image binary64 mid (ivec (-3) 0 0 1) (ivec (-3) 0 0 1) /\ fl_image binary64 mid (ivec 1 0 0 0) (ivec 1 0 0 0) /\
  either (fl_side_hits binary64 1 (ivec (-3) 0 0 1) (ivec 1 0 0 0)) 2 /\ reach mid (ivec (-3) 0 0 1) (ivec 1 0 0 0) 2 10 /\ 0 <= 1 <= 10 /\ lo64 <= 10 /\ entries_below mid (/ lo64) /\
  from_axis (ivec 1 0 0 0) <= / lo64 * / lo64.
Proof.
  split; [apply mid_image64; lia|]. split; [apply mid_image64; lia|]. split; [exists 4; right; exact side_hits64|].
  split; [apply mid_reach; absolute; lra|]. split; [lra|]. pose proof lo64_small. pose proof lo64_sqr as (A & B & C). split; [lra|]. split; [exact mid_entries|]. unfold from_axis, ivec. cbn [vx vy]. lra.
Qed.

(** ** A paraboloid of focal length 1, met from (-3, 0, 1) along x *)
Lemma bowl_hits64 : fl_bowl_hits binary64 1 (ivec (-3) 0 1 1) (ivec 1 0 0 0) 5 1.
Proof.
  exists 1, (-6), 5. split.
  - exists (-3), 9. split; [|split; [|split; [|split; [exact isclose1|split]]]].
    + exact (int_dot2 1 1 0 0 ltac:(reflexivity) ltac:(reflexivity)).
    + exact (int_dot2 (-3) 1 0 0 ltac:(reflexivity) ltac:(reflexivity)).
    + exact (int_dot2 (-3) (-3) 0 0 ltac:(reflexivity) ltac:(reflexivity)).
    + unfold ivec. cbn [vz]. replace (4 * 1) with (IZR 4) by lra. rewrite (ex 4) by reflexivity. rewrite Rmult_0_r, (ex 0) by reflexivity.
      replace (2 * -3) with (IZR (-6)) by (rewrite <- mult_IZR; reflexivity). rewrite (ex (-6)) by reflexivity. rewrite Rminus_0_r, (ex (-6)) by reflexivity. reflexivity.
    + unfold ivec. cbn [vz]. replace (4 * 1) with (IZR 4) by lra. rewrite (ex 4) by reflexivity. rewrite Rmult_1_r, (ex 4) by reflexivity. replace (9 - 4) with (IZR 5) by lra. rewrite ex by reflexivity. reflexivity.
  - replace (binary64 (binary64 (2 * 1) + 0)) with (IZR (2 * 1)) by (rewrite Rplus_0_r, <- mult_IZR, !ex by reflexivity; reflexivity). apply (int_roots 1 (-6) 5 4); try lia.
Qed.
Lemma bowl_case64 : fl_image binary64 mid (ivec (-3) 0 1 1) (ivec (-3) 0 1 1) /\ fl_image binary64 mid (ivec 1 0 0 0) (ivec 1 0 0 0) /\
  either (fl_bowl_hits binary64 1 (ivec (-3) 0 1 1) (ivec 1 0 0 0)) 1 /\ reach mid (ivec (-3) 0 1 1) (ivec 1 0 0 0) 1 10 /\ lo64 <= 1 <= 10 /\ entries_below mid (/ lo64) /\
  from_axis (ivec 1 0 0 0) <= / lo64 * / lo64 /\ Rabs (vz (ivec 1 0 0 0)) <= / lo64.
Proof.
  split; [apply mid_image64; lia|]. split; [apply mid_image64; lia|]. split; [exists 5; right; exact bowl_hits64|].
  split; [apply mid_reach; absolute; lra|]. pose proof lo64_small. pose proof lo64_sqr as (A & B & C). split; [lra|]. split; [exact mid_entries|]. unfold from_axis, ivec. cbn [vx vy vz]. rewrite Rabs_R0. lra.
Qed.

(** ** The plane z = 2, met from the origin along z *)
Lemma face_case64 : rdot binary64 (pairs (row2 mid) (ivec 0 0 0 1)) 0 /\ rdot binary64 (pairs (row2 mid) (ivec 0 0 1 0)) 1 /\ fl_face_hit binary64 2 0 1 2 /\
  terms (row2 mid) (ivec 0 0 0 1) (ivec 0 0 1 0) 2 <= 10.
Proof.
  split; [exact (int_dot4 0 0 0 0 1 0 0 1 ltac:(reflexivity) ltac:(reflexivity) ltac:(reflexivity) ltac:(reflexivity))|].
  split; [exact (int_dot4 0 0 0 0 1 1 0 0 ltac:(reflexivity) ltac:(reflexivity) ltac:(reflexivity) ltac:(reflexivity))|]. split.
  - split; [exact isclose1|]. left. rewrite Rminus_0_r, (ex 2), Rplus_0_r, (ex 1) by reflexivity. replace (2 / 1) with (IZR 2) by field. rewrite ex by reflexivity. reflexivity.
  - unfold terms, mid, ivec. cbn [row2 vx vy vz vw]. absolute. lra.
Qed.
