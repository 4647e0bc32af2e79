(** * C119, paraboloids: rays meet moved paraboloids where exact arithmetic has them, up to rounding *)
From Coq Require Import Reals List Bool ZArith Lra Lia.
Import ListNotations.
From Flocq Require Import Core.
From Verif Require Import XR XRFacts Lin LinFacts World SpecWorld Fl FlHits SpecFl FlFacts FlBinary FlWorld SpecFlWorld FlWorldExamples SpecFlHits FlHitsBinary FlStepBinary FlBowl SpecFlBowl SpecFlSeen FlSeenHist SpecFlMetBowl FlMetBowl Props_StepBowl.
Open Scope R_scope.

(** As in Props_Met.v.  The computed point is off the curved part of the exact paraboloid, measured along its axis, by at most the
    roundings of the intersection, the residual of the inverse and the drift [e] of the object.  For a ray nearly along the axis
    there is also the quadratic term, which the code takes for 0 where it is below 1e-8. *)
Theorem C119_moved_paraboloids_are_met : forall rnd fsin fcos lo u eta delta A,
  clear lo u eta -> 0 < u -> rounds_within u eta rnd -> leaves_numbers rnd -> 0 <= delta -> trig_within delta rnd fsin fcos -> 1 <= A ->
  forall os st m, Forall (gentle rnd A) os -> fl_history rnd fsin fcos os (Some st) -> composed os = Some m ->
  let e := drift (per_movement u delta A) (length os) in e <= / 200 ->
  forall P, 16 * eta <= u * P -> 0 <= P -> stays_within P os ->
  forall rho L X o d o' d' t, 0 <= rho <= / 100 -> inverts rho P (fl_world st) X -> within_reach lo L P o d t -> fl_image rnd X o o' -> fl_image rnd X d d' ->
  let q := vsub (fl_move rnd o d t) (mapply m (point 0 0 0)) in let k := mapply m (vector 0 0 1) in
  forall f, lo <= f <= L ->
  (either (fl_bowl_hits rnd f o' d') t ->
     near_bowl k f q (8192 * u * ((8 * L + climb f d') * (8 * L + climb f d')) / f + 3 * (4 * rho + 9 * e) * L * (L / f))) /\
  (fl_bowl_line rnd f o' d' t -> near_bowl k f q ((4096 * u + / 40000000 + 3 * (4 * rho + 9 * e)) * L * (L / f))).
Proof. intros. split; intros; [eapply hit_bowl|eapply hit_bowl_line]; eassumption. Qed.
Print Assumptions C119_moved_paraboloids_are_met.

(** In binary64, after [n] movements, up to 2^30 *)
Theorem C119_paraboloids_in_binary64 : forall fsin fcos, trig_within (4 * u64) binary64 fsin fcos ->
  forall os st m, Forall (gentle binary64 7) os -> fl_history binary64 fsin fcos os (Some st) -> composed os = Some m -> (Z.of_nat (length os) <= 2 ^ 30)%Z ->
  let e := INR (length os) * / 50000000000000 in
  forall P, / 1000000000000 <= P -> stays_within P os ->
  forall rho L X o d o' d' t, 0 <= rho <= / 100 -> inverts rho P (fl_world st) X -> within_reach (bpow radix2 (-255)) L P o d t ->
  fl_image binary64 X o o' -> fl_image binary64 X d d' ->
  let q := vsub (fl_move binary64 o d t) (mapply m (point 0 0 0)) in let k := mapply m (vector 0 0 1) in
  forall f, bpow radix2 (-255) <= f <= L ->
  (either (fl_bowl_hits binary64 f o' d') t ->
     near_bowl k f q (bpow radix2 (-40) * ((8 * L + climb f d') * (8 * L + climb f d')) / f + 3 * (4 * rho + 9 * e) * L * (L / f))) /\
  (fl_bowl_line binary64 f o' d' t -> near_bowl k f q ((/ 30000000 + 3 * (4 * rho + 9 * e)) * L * (L / f))).
Proof.
  intros fsin fcos TW os st m G H C N e P HP SW rho L X o d o' d' t RHO IV WR IO ID q k f F. pose proof (drift64 _ N) as (D1 & _). fold e in D1.
  assert (IN : 0 <= INR (length os) <= 1073741824) by (rewrite INR_IZR_INZ; split; apply IZR_le; lia).
  assert (DE : drift (per_movement u64 (4 * u64) 7) (length os) <= / 200) by (unfold e in D1; lra). pose proof u64_small as (V0 & V1).
  assert (D4 : 0 <= 4 * u64) by lra. assert (S7 : 1 <= 7) by lra. assert (P0 : 0 <= P) by lra.
  assert (F0 : 0 < f). { destruct clear64 as ((L0 & _) & _). unfold lo64 in L0. lra. }
  assert (LF : 0 <= L * (L / f)). { assert (0 < / f) by (apply Rinv_0_lt_compat; lra). apply Rmult_le_pos; [lra|]. unfold Rdiv. apply Rmult_le_pos; lra. }
  replace (bpow radix2 (-40)) with (8192 * u64) by (unfold u64; change 8192 with (bpow radix2 13); rewrite <- bpow_plus; reflexivity).
  assert (MONO : forall r r', r <= r' -> near_bowl k f q r -> near_bowl k f q r') by (intros r r' RR (s & S1 & S2); exists s; split; [lra|exact S2]).
  destruct (C119_moved_paraboloids_are_met binary64 fsin fcos lo64 u64 eta64 (4 * u64) 7 clear64 u64_pos binary64_rounds leaves64 D4 TW S7 os st m G H C DE P (tiny64 P HP) P0 SW rho L X o d o' d' t RHO IV WR IO ID f F) as (Q1 & Q2).
  assert (Y : forall x, x * L * (L / f) = x * (L * (L / f))) by (intro; ring).
  split; intros HT; [eapply MONO; [|exact (Q1 HT)]; apply Rplus_le_compat_l|eapply MONO; [|exact (Q2 HT)]]; rewrite !Y.
  - apply Rmult_le_compat_r; [exact LF|lra].
  - apply Rmult_le_compat_r; [exact LF|]. pose proof u64_value. lra.
Qed.
Print Assumptions C119_paraboloids_in_binary64.
(** The paraboloid of focal length 1 moved by (0, 0, 5): it is met in (-2, 0, 6) from (-3, 0, 6) along x, and in (2, 0, 6) from (2, 0, 10) down its axis *)
Lemma reach64 : forall x z a c t : Z, (Z.abs x <= 5)%Z -> (Z.abs z <= 15)%Z -> (a * a + c * c = 1)%Z -> (0 <= t <= 5)%Z ->
  within_reach (bpow radix2 (-255)) 20 5 (ivec x 0 z 1) (ivec a 0 c 0) (IZR t).
Proof.
  intros x z a c t X Z A T. pose proof lo64_small as S. pose proof lo64_sqr as (_ & K & _). destruct clear64 as ((LP & _) & _). unfold lo64 in *.
  assert (N1 : vnorm (ivec a 0 c 0) = 1).
  { unfold vnorm, ivec, vdot. cbn [vx vy vz vw]. replace (_ + _ + _ + _) with (IZR (a * a + c * c)) by (rewrite plus_IZR, !mult_IZR; ring). rewrite A. apply sqrt_1. }
  unfold within_reach. rewrite N1. assert (T0 : 0 <= IZR t <= 5) by (split; apply IZR_le; lia).
  assert (XX : -5 <= IZR x <= 5) by (split; apply IZR_le; lia). assert (ZZ : -15 <= IZR z <= 15) by (split; apply IZR_le; lia).
  repeat split; try lra.
  - unfold from_origin, vnorm. apply Rle_trans with (sqrt (20 * 20)); [|rewrite sqrt_square; lra].
    apply sqrt_le_1_alt; unfold ivec, mapply, vdot, vsub, vadd, vopp, vscale, point; cbn [vx vy vz vw]. nra.
  - rewrite Rabs_right; lra.
Qed.
Example C119_moved_paraboloid : exists st, fl_history binary64 sin64 cos64 up5 (Some st) /\ Forall (gentle binary64 7) up5 /\ trig_within (4 * u64) binary64 sin64 cos64 /\
  stays_within 5 up5 /\ inverts 0 5 (fl_world st) moved /\ bpow radix2 (-255) <= 1 <= 20 /\
  (within_reach (bpow radix2 (-255)) 20 5 (ivec (-3) 0 6 1) (ivec 1 0 0 0) 1 /\
   fl_image binary64 moved (ivec (-3) 0 6 1) (ivec (-3) 0 1 1) /\ fl_image binary64 moved (ivec 1 0 0 0) (ivec 1 0 0 0) /\
   either (fl_bowl_hits binary64 1 (ivec (-3) 0 1 1) (ivec 1 0 0 0)) 1) /\
  (within_reach (bpow radix2 (-255)) 20 5 (ivec 2 0 10 1) (ivec 0 0 (-1) 0) 4 /\
   fl_image binary64 moved (ivec 2 0 10 1) (ivec 2 0 5 1) /\ fl_image binary64 moved (ivec 0 0 (-1) 0) (ivec 0 0 (-1) 0) /\
   fl_bowl_line binary64 1 (ivec 2 0 5 1) (ivec 0 0 (-1) 0) 4).
Proof.
  destruct up5_history as (st & H). exists st. pose proof (up5_inverse st H). pose proof up5_within. pose proof (proj1 up5_gentle). pose proof trig64.
  pose proof lo64_small as S. unfold lo64 in S.
  do 5 (split; [assumption|]). split; [lra|].
  split; (split; [apply reach64; lia|]); (split; [apply int_image; try (repeat split; reflexivity); repeat constructor; reflexivity|]);
    (split; [apply int_image; try (repeat split; reflexivity); repeat constructor; reflexivity|]).
  - exists 5. right. exact bowl_hits64.
  - exact line64.
Qed.
