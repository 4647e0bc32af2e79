(** * Props_Step: a ray does not meet again the surface it just left, with rounding (C112) *)
From Coq Require Import Reals List Bool ZArith Lra Lia.
Import ListNotations.
From Flocq Require Import Core.
From Verif Require Import XR Lin Fl SpecFl FlFacts FlProps FlBinary FlHits SpecFlHits FlHitsFacts FlHitsOn FlHitsBinary FlStep SpecFlStep FlStepProps FlStepBinary.
Open Scope R_scope.

(** The ray from [o] along [d] is found to meet the surface at [t] and is moved there; it goes on
    along [v], whatever the surface made of it, and steps off by [h].  [o2] and [v2] are its computed
    origin and direction seen from the object whose matrix is [m], from which its next hits are
    computed.  [S] bounds the coordinates, as in C99. *)

(** Spheres: if it leaves outwards fast enough, both hits are behind it; if it goes in fast enough,
    one is behind it and the other ahead *)
Theorem C112_off_a_sphere : forall rnd lo u eta, clear lo u eta -> 0 < u -> rounds_within u eta rnd ->
  forall m r o d o' d' t S, fl_image rnd m o o' -> fl_image rnd m d d' -> either (fl_sphere_hits rnd r o' d') t ->
  reach m o d t S -> 0 <= r <= S -> lo <= S -> entries_below m (/ lo) -> lo * lo <= from_centre d' <= / lo * / lo ->
  forall h v o2 v2, let p := fl_move rnd o d t in
  0 < h <= 1 -> fl_image rnd m (fl_step rnd h p v) o2 -> fl_image rnd m v v2 -> reach m p v h S -> lo * lo <= from_centre v2 <= / lo * / lo ->
  (8192 * u * (S * S) <= h * rate_from_centre m p v -> forall t0 t1, fl_sphere_hits rnd r o2 v2 t0 t1 -> t0 < 0 /\ t1 < 0) /\
  (2 * (h * rate_from_centre m p v) + h * h * from_centre (mapply m v) <= - (16384 * u * (S * S)) ->
     ~ fl_sphere_miss rnd r o2 v2 /\ forall t0 t1, fl_sphere_hits rnd r o2 v2 t0 t1 -> t1 < 0 < t0).
Proof.
  intros rnd lo u eta CL UP RW m r o d o' d' t S I1 I2 HT RE RS LS EB D' h v o2 v2 p HH J1 J2 RE2 V2.
  pose proof (sphere_on rnd lo u eta CL RW m r o d o' d' t S I1 I2 HT RE RS LS EB D') as ON.
  split; intros X; [eapply sphere_left|eapply sphere_entered]; eauto.
Qed.
Print Assumptions C112_off_a_sphere.
(** The sides of cylinders *)
Theorem C112_off_a_cylinder : forall rnd lo u eta, clear lo u eta -> 0 < u -> rounds_within u eta rnd ->
  forall m r o d o' d' t S, fl_image rnd m o o' -> fl_image rnd m d d' -> either (fl_side_hits rnd r o' d') t ->
  reach m o d t S -> 0 <= r <= S -> lo <= S -> entries_below m (/ lo) -> from_axis d' <= / lo * / lo ->
  forall h v o2 v2, let p := fl_move rnd o d t in
  0 < h <= 1 -> fl_image rnd m (fl_step rnd h p v) o2 -> fl_image rnd m v v2 -> reach m p v h S -> from_axis v2 <= / lo * / lo ->
  (8192 * u * (S * S) <= h * rate_from_axis m p v -> forall t0 t1, fl_side_hits rnd r o2 v2 t0 t1 -> t0 < 0 /\ t1 < 0) /\
  (2 * (h * rate_from_axis m p v) + h * h * from_axis (mapply m v) <= - (16384 * u * (S * S)) ->
     ~ fl_side_miss rnd r o2 v2 /\ forall t0 t1, fl_side_hits rnd r o2 v2 t0 t1 -> t1 < 0 < t0).
Proof.
  intros rnd lo u eta CL UP RW m r o d o' d' t S I1 I2 HT RE RS LS EB D' h v o2 v2 p HH J1 J2 RE2 V2.
  pose proof (side_on rnd lo u eta CL RW m r o d o' d' t S I1 I2 HT RE RS LS EB D') as ON.
  split; intros X; [eapply side_left|eapply side_entered]; eauto.
Qed.
Print Assumptions C112_off_a_cylinder.
(** Planes, the faces of boxes and flat ends: on either side *)
Theorem C112_off_a_flat_face : forall rnd lo u eta, clear lo u eta -> 0 < u -> rounds_within u eta rnd ->
  forall r o d x y t k S, rdot rnd (pairs r o) x -> rdot rnd (pairs r d) y -> fl_face_hit rnd k x y t ->
  terms r o d t <= S -> Rabs k <= S -> lo <= S -> Rabs (vx r) <= / lo -> Rabs (vy r) <= / lo -> Rabs (vz r) <= / lo -> Rabs (vw r) <= / lo -> Rabs y <= / lo ->
  forall h v x2 y2, let p := fl_move rnd o d t in
  0 < h <= 1 -> rdot rnd (pairs r (fl_step rnd h p v)) x2 -> rdot rnd (pairs r v) y2 -> terms r p v h <= S -> Rabs y2 <= / lo ->
  128 * u * S <= h * Rabs (vdot r v) -> forall t2, fl_face_hit rnd k x2 y2 t2 -> t2 < 0.
Proof.
  intros rnd lo u eta CL UP RW r o d x y t k S H1 H2 H3 T A L X Y Z W B h v x2 y2 p HH J1 J2 T2 B2 OUT.
  pose proof (face_on rnd lo u eta CL RW r o d t x y k S H1 H2 H3 T A L X Y Z W B) as ON.
  eapply face_left; eauto.
Qed.
Print Assumptions C112_off_a_flat_face.

(** ** Binary64 and the offset 1e-6 *)
Theorem C112_off_a_sphere_in_binary64 : forall m r o d o' d' t S, fl_image binary64 m o o' -> fl_image binary64 m d d' -> either (fl_sphere_hits binary64 r o' d') t ->
  reach m o d t S -> 0 <= r <= S -> lo64 <= S -> entries_below m (/ lo64) -> lo64 * lo64 <= from_centre d' <= / lo64 * / lo64 ->
  forall v o2 v2, let p := fl_move binary64 o d t in let h := fl_offset binary64 in
  fl_image binary64 m (fl_step binary64 h p v) o2 -> fl_image binary64 m v v2 -> reach m p v h S -> lo64 * lo64 <= from_centre v2 <= / lo64 * / lo64 ->
  (S * S / 1000000 <= rate_from_centre m p v -> forall t0 t1, fl_sphere_hits binary64 r o2 v2 t0 t1 -> t0 < 0 /\ t1 < 0) /\
  (rate_from_centre m p v + h * from_centre (mapply m v) / 2 <= - (S * S / 1000000) ->
     ~ fl_sphere_miss binary64 r o2 v2 /\ forall t0 t1, fl_sphere_hits binary64 r o2 v2 t0 t1 -> t1 < 0 < t0).
Proof.
  intros m r o d o' d' t S I1 I2 HT RE RS LS EB D' v o2 v2 p h J1 J2 RE2 V2. pose proof offset64 as (H0 & H1). fold h in H0, H1.
  destruct (C112_off_a_sphere binary64 lo64 u64 eta64 clear64 u64_pos binary64_rounds m r o d o' d' t S I1 I2 HT RE RS LS EB D' h v o2 v2) as (A & B); auto; [lra|].
  assert (SS : 0 <= S * S) by nra. split; intros X.
  - apply A. fold p. apply Rle_trans with (h * (S * S / 1000000)); [|apply Rmult_le_compat_l; lra].
    assert (0.999999 / 1000000 * (S * S / 1000000) <= h * (S * S / 1000000)) by (apply Rmult_le_compat_r; lra). rewrite u64_value. lra.
  - apply B. fold p. assert (Y : h * (rate_from_centre m p v + h * from_centre (mapply m v) / 2) <= h * - (S * S / 1000000)) by (apply Rmult_le_compat_l; lra).
    assert (0.999999 / 1000000 * (S * S / 1000000) <= h * (S * S / 1000000)) by (apply Rmult_le_compat_r; lra). rewrite u64_value. lra.
Qed.
Print Assumptions C112_off_a_sphere_in_binary64.
Theorem C112_off_a_flat_face_in_binary64 : forall r o d x y t k S, rdot binary64 (pairs r o) x -> rdot binary64 (pairs r d) y -> fl_face_hit binary64 k x y t ->
  terms r o d t <= S -> Rabs k <= S -> lo64 <= S -> Rabs (vx r) <= / lo64 -> Rabs (vy r) <= / lo64 -> Rabs (vz r) <= / lo64 -> Rabs (vw r) <= / lo64 -> Rabs y <= / lo64 ->
  forall v x2 y2, let p := fl_move binary64 o d t in let h := fl_offset binary64 in
  rdot binary64 (pairs r (fl_step binary64 h p v)) x2 -> rdot binary64 (pairs r v) y2 -> terms r p v h <= S -> Rabs y2 <= / lo64 ->
  S / 50000000 <= Rabs (vdot r v) -> forall t2, fl_face_hit binary64 k x2 y2 t2 -> t2 < 0.
Proof.
  intros r o d x y t k S H1 H2 H3 T A L X Y Z W B v x2 y2 p h J1 J2 T2 B2 OUT. pose proof offset64 as (K0 & K1). fold h in K0, K1.
  apply (C112_off_a_flat_face binary64 lo64 u64 eta64 clear64 u64_pos binary64_rounds r o d x y t k S H1 H2 H3 T A L X Y Z W B h v x2 y2); auto; [lra|].
  assert (S0 : 0 <= S) by (destruct clear64 as ((P & _) & _); lra).
  apply Rle_trans with (h * (S / 50000000)); [|apply Rmult_le_compat_l; lra].
  assert (0.999999 / 1000000 * (S / 50000000) <= h * (S / 50000000)) by (apply Rmult_le_compat_r; lra). rewrite u64_value. lra.
Qed.
Print Assumptions C112_off_a_flat_face_in_binary64.

(** The offset is a fixed length: 2^35 or more from the origin it does not move a ray at all *)
Theorem C112_offset_lost_far_away_refuted : forall p v,
  stays (vx p) (vx v) -> stays (vy p) (vy v) -> stays (vz p) (vz v) -> stays (vw p) (vw v) ->
  fl_step binary64 (fl_offset binary64) p v = p.
Proof. exact step_lost. Qed.
Print Assumptions C112_offset_lost_far_away_refuted.
Example C112_far_case : stays (IZR (2 ^ 36)) 1 /\ stays 0 0 /\ stays 1 0.
Proof.
  unfold stays. split; [|split; (split; [apply (exact_int _); reflexivity|left; reflexivity])].
  split; [apply exact_int; reflexivity|]. right. change (bpow radix2 35) with (IZR (2 ^ 35)). rewrite Rabs_right by (apply Rle_ge; apply IZR_le; lia). rewrite Rabs_R1. split; [apply IZR_le; lia|lra].
Qed.

(** The sphere of radius 1 around (0, 0, 5), met from (0, 0, 2): the ray is sent back along -z, or goes on along z *)
Example C112_sphere_case : forall s, s = 1%Z \/ s = (-1)%Z -> exists o2,
  let p := fl_move binary64 (ivec 0 0 2 1) (ivec 0 0 1 0) 2 in let h := fl_offset binary64 in let v := ivec 0 0 s 0 in
  fl_image binary64 moved (fl_step binary64 h p v) o2 /\ fl_image binary64 moved v v /\ reach moved p v h 10 /\
  lo64 * lo64 <= from_centre v <= / lo64 * / lo64 /\
  (s = (-1)%Z -> 10 * 10 / 1000000 <= rate_from_centre moved p v) /\
  (s = 1%Z -> rate_from_centre moved p v + h * from_centre (mapply moved v) / 2 <= - (10 * 10 / 1000000)).
Proof.
  intros s SS. destruct (image_exists binary64 moved (fl_step binary64 (fl_offset binary64) (fl_move binary64 (ivec 0 0 2 1) (ivec 0 0 1 0) 2) (ivec 0 0 s 0))) as [o2 I]. exists o2. cbv zeta.
  assert (P : fl_move binary64 (ivec 0 0 2 1) (ivec 0 0 1 0) 2 = ivec 0 0 4 1).
  { unfold fl_move, vround, vadd, vscale, ivec. cbn [vx vy vz vw]. rewrite !Rmult_0_r, Rmult_1_r, !(ex 0), !(ex 2) by reflexivity. rewrite !Rplus_0_l, !Rplus_0_r.
    rewrite !(ex 0), (ex 1) by reflexivity. replace (2 + 2) with 4 by ring. rewrite (ex 4) by reflexivity. reflexivity. }
  rewrite P in *. pose proof offset64 as (H0 & H1). set (h := fl_offset binary64) in *. pose proof lo64_sqr as (A & B & C). pose proof lo64_small.
  split; [exact I|]. split; [destruct SS as [->| ->]; apply int_image; try (repeat split; reflexivity); repeat constructor; reflexivity|].
  split; [|split; [|split]].
  - unfold reach, terms, moved, ivec. cbn [row0 row1 row2 vx vy vz vw]. rewrite !Rabs_mult, (Rabs_right h) by lra. destruct SS as [->| ->]; absolute; lra.
  - destruct SS as [->| ->]; unfold from_centre, ivec; cbn [vx vy vz]; lra.
  - intros ->. unfold rate_from_centre, moved, ivec, mapply, vdot. cbn. lra.
  - intros ->. unfold rate_from_centre, from_centre, moved, ivec, mapply, vdot. cbn. lra.
Qed.
