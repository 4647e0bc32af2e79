(** * C119: rays meet moved objects where exact arithmetic has them, up to rounding *)
From Coq Require Import Reals List Bool ZArith Lra Lia.
Import ListNotations.
From Flocq Require Import Core.
From Verif Require Import XR XRFacts Lin LinFacts World SpecWorld Fl FlHits SpecFl FlFacts FlBinary FlWorld SpecFlWorld FlWorldExamples SpecFlHits FlHitsBinary SpecFlSeen FlSeenHist.
Open Scope R_scope.

(** An object is moved and turned, with rounding; [m] is where exact arithmetic puts it, [X] any inverse of its matrix with a
    relative residual [rho], and [P] bounds its distance from the origin on the way.  A ray that stays within [L] of the origin,
    seen through [X] with rounding, is found to hit at [t] and is moved there.  The computed point then lies on the exact surface
    up to the roundings of the intersection, the residual of the inverse and the drift [e] of the object. *)
Theorem C119_moved_spheres_are_met : forall rnd fsin fcos lo u eta delta A,
  clear lo u eta -> rounds_within u eta rnd -> leaves_numbers rnd -> 0 <= delta -> trig_within delta rnd fsin fcos -> 1 <= A ->
  forall os st m, Forall (gentle rnd A) os -> fl_history rnd fsin fcos os (Some st) -> composed os = Some m ->
  let e := drift (per_movement u delta A) (length os) in e <= / 200 ->
  forall P, 16 * eta <= u * P -> 0 <= P -> stays_within P os ->
  forall rho L X o d o' d' t, 0 <= rho <= / 100 -> inverts rho P (fl_world st) X -> within_reach lo L P o d t -> fl_image rnd X o o' -> fl_image rnd X d d' ->
  forall r, 0 < r <= L -> either (fl_sphere_hits rnd r o' d') t ->
  Rabs (vnorm (vsub (fl_move rnd o d t) (mapply m (point 0 0 0))) - r) <= 524288 * u * L * (L / r) + (4 * rho + 9 * e) * L.
Proof. intros. eapply hit_sphere; eassumption. Qed.
Print Assumptions C119_moved_spheres_are_met.

(** The sides of cylinders: the distance from the exact axis *)
Theorem C119_moved_cylinders_are_met : forall rnd fsin fcos lo u eta delta A,
  clear lo u eta -> rounds_within u eta rnd -> leaves_numbers rnd -> 0 <= delta -> trig_within delta rnd fsin fcos -> 1 <= A ->
  forall os st m, Forall (gentle rnd A) os -> fl_history rnd fsin fcos os (Some st) -> composed os = Some m ->
  let e := drift (per_movement u delta A) (length os) in e <= / 200 ->
  forall P, 16 * eta <= u * P -> 0 <= P -> stays_within P os ->
  forall rho L X o d o' d' t, 0 <= rho <= / 100 -> inverts rho P (fl_world st) X -> within_reach lo L P o d t -> fl_image rnd X o o' -> fl_image rnd X d d' ->
  forall r, 0 < r <= L -> either (fl_side_hits rnd r o' d') t ->
  Rabs (off_axis (mapply m (vector 0 0 1)) (vsub (fl_move rnd o d t) (mapply m (point 0 0 0))) - r) <= 524288 * u * L * (L / r) + (4 * rho + 9 * e) * L.
Proof. intros. eapply hit_side; eassumption. Qed.
Print Assumptions C119_moved_cylinders_are_met.

(** Flat faces: the height over the object's exact place, along the exact axis [k] the face is perpendicular to *)
Theorem C119_moved_faces_are_met : forall rnd fsin fcos lo u eta delta A,
  clear lo u eta -> rounds_within u eta rnd -> leaves_numbers rnd -> 0 <= delta -> trig_within delta rnd fsin fcos -> 1 <= A ->
  forall os st m, Forall (gentle rnd A) os -> fl_history rnd fsin fcos os (Some st) -> composed os = Some m ->
  let e := drift (per_movement u delta A) (length os) in e <= / 200 ->
  forall P, 16 * eta <= u * P -> 0 <= P -> stays_within P os ->
  forall rho L X o d o' d' t, 0 <= rho <= / 100 -> inverts rho P (fl_world st) X -> within_reach lo L P o d t -> fl_image rnd X o o' -> fl_image rnd X d d' ->
  forall k f h, In (k, f) axes -> Rabs h <= L -> fl_face_hit rnd h (f o') (f d') t ->
  Rabs (vdot (vsub (fl_move rnd o d t) (mapply m (point 0 0 0))) (mapply m k) - h) <= 256 * u * L + (4 * rho + 9 * e) * L.
Proof. intros. eapply hit_face; eassumption. Qed.
Print Assumptions C119_moved_faces_are_met.

(** In binary64, after [n] movements, up to 2^30 *)
Theorem C119_in_binary64 : forall fsin fcos, trig_within (4 * u64) binary64 fsin fcos ->
  forall os st m, Forall (gentle binary64 7) os -> fl_history binary64 fsin fcos os (Some st) -> composed os = Some m -> (Z.of_nat (length os) <= 2 ^ 30)%Z ->
  let e := INR (length os) * / 50000000000000 in
  forall P, / 1000000000000 <= P -> stays_within P os ->
  forall rho L X o d o' d' t, 0 <= rho <= / 100 -> inverts rho P (fl_world st) X -> within_reach (bpow radix2 (-255)) L P o d t ->
  fl_image binary64 X o o' -> fl_image binary64 X d d' ->
  let q := vsub (fl_move binary64 o d t) (mapply m (point 0 0 0)) in
  (forall r, 0 < r <= L -> either (fl_sphere_hits binary64 r o' d') t -> Rabs (vnorm q - r) <= bpow radix2 (-34) * L * (L / r) + (4 * rho + 9 * e) * L) /\
  (forall r, 0 < r <= L -> either (fl_side_hits binary64 r o' d') t -> Rabs (off_axis (mapply m (vector 0 0 1)) q - r) <= bpow radix2 (-34) * L * (L / r) + (4 * rho + 9 * e) * L) /\
  (forall k f h, In (k, f) axes -> Rabs h <= L -> fl_face_hit binary64 h (f o') (f d') t -> Rabs (vdot q (mapply m k) - h) <= bpow radix2 (-45) * L + (4 * rho + 9 * e) * L).
Proof.
  intros fsin fcos TW os st m G H C N e P HP SW rho L X o d o' d' t RHO IV WR IO ID q. pose proof (drift64 _ N) as (D1 & _). fold e in D1.
  assert (IN : 0 <= INR (length os) <= 1073741824) by (rewrite INR_IZR_INZ; split; apply IZR_le; lia).
  assert (DE : drift (per_movement u64 (4 * u64) 7) (length os) <= / 200) by (unfold e in D1; lra). pose proof u64_small as (V0 & V1).
  assert (LP : 0 <= L). { destruct WR as (_ & _ & _ & _ & _ & PL & _). lra. } assert (D4 : 0 <= 4 * u64) by lra. assert (S7 : 1 <= 7) by lra. assert (P0 : 0 <= P) by lra.
  assert (T : (4 * rho + 9 * drift (per_movement u64 (4 * u64) 7) (length os)) * L <= (4 * rho + 9 * e) * L) by (apply Rmult_le_compat_r; lra).
  replace (bpow radix2 (-34)) with (524288 * u64) by (unfold u64; change 524288 with (bpow radix2 19); rewrite <- bpow_plus; reflexivity).
  replace (bpow radix2 (-45)) with (256 * u64) by (unfold u64; change 256 with (bpow radix2 8); rewrite <- bpow_plus; reflexivity).
  split; [|split].
  - intros r R0 HT. eapply Rle_trans; [eapply (C119_moved_spheres_are_met binary64 fsin fcos lo64 u64 eta64 (4 * u64) 7 clear64 binary64_rounds leaves64 D4 TW S7 os st m G H C DE P (tiny64 P HP) P0 SW rho L X o d o' d' t RHO IV WR IO ID); eassumption|].
    apply Rplus_le_compat_l. exact T.
  - intros r R0 HT. eapply Rle_trans; [eapply (C119_moved_cylinders_are_met binary64 fsin fcos lo64 u64 eta64 (4 * u64) 7 clear64 binary64_rounds leaves64 D4 TW S7 os st m G H C DE P (tiny64 P HP) P0 SW rho L X o d o' d' t RHO IV WR IO ID); eassumption|].
    apply Rplus_le_compat_l. exact T.
  - intros k f h I HL HT. eapply Rle_trans; [eapply (C119_moved_faces_are_met binary64 fsin fcos lo64 u64 eta64 (4 * u64) 7 clear64 binary64_rounds leaves64 D4 TW S7 os st m G H C DE P (tiny64 P HP) P0 SW rho L X o d o' d' t RHO IV WR IO ID); eassumption|].
    apply Rplus_le_compat_l. exact T.
Qed.
Print Assumptions C119_in_binary64.
(** a sphere of radius 1 moved by (0, 0, 5) and met at (0, 0, 4) by the ray from (0, 0, 2) along z: all hypotheses hold, with the exact inverse *)
Example C119_moved_up : exists st, fl_history binary64 sin64 cos64 up5 (Some st) /\ Forall (gentle binary64 7) up5 /\ trig_within (4 * u64) binary64 sin64 cos64 /\
  stays_within 5 up5 /\ inverts 0 5 (fl_world st) moved /\ within_reach (bpow radix2 (-255)) 10 5 (ivec 0 0 2 1) (ivec 0 0 1 0) 2 /\
  fl_image binary64 moved (ivec 0 0 2 1) (ivec 0 0 (-3) 1) /\ fl_image binary64 moved (ivec 0 0 1 0) (ivec 0 0 1 0) /\
  either (fl_sphere_hits binary64 1 (ivec 0 0 (-3) 1) (ivec 0 0 1 0)) 2.
Proof.
  destruct up5_history as (st & H). exists st. pose proof sphere_case64 as (I1 & I2 & E & _). pose proof (up5_inverse st H). pose proof up5_reach. pose proof up5_within. pose proof (proj1 up5_gentle). pose proof trig64.
  repeat (split; [assumption|]). assumption.
Qed.
