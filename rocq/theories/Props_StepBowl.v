(** * Props_StepBowl: rounded hits of paraboloids (C99, C100), and a ray does not meet again the one it just left (C112) *)
From Coq Require Import Reals List Bool ZArith Lra Lia.
Import ListNotations.
From Flocq Require Import Core.
From Verif Require Import XR Lin Fl SpecFl FlFacts FlProps FlBinary FlHits SpecFlHits FlHitsFacts FlHitsOn FlHitsBowl FlHitsBinary FlStep SpecFlStep FlStepProps FlStepBinary FlBowl SpecFlBowl FlBowlProps FlBowlLine FlBowlSure.
Open Scope R_scope.

(** ** C99: rays along the axis *)
(** Where the code takes the quadratic term for 0, the hit is off the paraboloid by that term and by rounding *)
Theorem C99_axial_hits_lie_on_paraboloids : forall rnd lo u eta, clear lo u eta -> 0 < u -> rounds_within u eta rnd ->
  forall m f o d o' d' t S, fl_image rnd m o o' -> fl_image rnd m d d' -> fl_bowl_line rnd f o' d' t ->
  reach m o d t S -> lo <= f <= S -> entries_below m (/ lo) -> from_axis d' <= / lo * / lo -> lo <= Rabs (vz d') <= / lo ->
  Rabs (from_bowl f (mapply m (fl_move rnd o d t))) <= 256 * u * (S * S) + from_axis d' * (t * t).
Proof. intros rnd lo u eta CL UP RW. exact (bowl_line_on rnd lo u eta CL UP RW). Qed.
Print Assumptions C99_axial_hits_lie_on_paraboloids.
(** The paraboloid of focal length 1, met from (2, 0, 5) down its axis *)
Lemma line64 : fl_bowl_line binary64 1 (ivec 2 0 5 1) (ivec 0 0 (-1) 0) 4.
Proof.
  exists 0, 0, 4, 4, (-16). split; [exact (int_dot2 0 0 0 0 ltac:(reflexivity) ltac:(reflexivity))|]. split; [exact (int_dot2 2 0 0 0 ltac:(reflexivity) ltac:(reflexivity))|]. split; [exact (int_dot2 2 2 0 0 ltac:(reflexivity) ltac:(reflexivity))|].
  split; [apply XRFacts.isclose0_0|]. unfold ivec. cbn [vz]. replace (4 * 1) with (IZR 4) by lra. rewrite (ex 4) by reflexivity.
  split; [|split; [|split]].
  - rewrite Rmult_0_r, (ex 0) by reflexivity. replace (4 * -1) with (IZR (-4)) by (rewrite <- mult_IZR; reflexivity). rewrite (ex (-4)) by reflexivity. replace (0 - -4) with (IZR 4) by (rewrite <- minus_IZR; reflexivity). rewrite ex by reflexivity. reflexivity.
  - replace (4 * 5) with (IZR 20) by lra. rewrite (ex 20) by reflexivity. replace (4 - 20) with (IZR (-16)) by (rewrite <- minus_IZR; reflexivity). rewrite ex by reflexivity. reflexivity.
  - apply XRFacts.isclose0_false. unfold atol. rewrite Rabs_right by lra. lra.
  - rewrite Rplus_0_r, (ex 4) by reflexivity. replace (- -16 / 4) with (IZR 4) by (rewrite <- (opp_IZR (-16)); cbn; lra). rewrite ex by reflexivity. reflexivity.
Qed.
Example C99_axial_case : fl_image binary64 mid (ivec 2 0 5 1) (ivec 2 0 5 1) /\ fl_image binary64 mid (ivec 0 0 (-1) 0) (ivec 0 0 (-1) 0) /\ fl_bowl_line binary64 1 (ivec 2 0 5 1) (ivec 0 0 (-1) 0) 4 /\
  reach mid (ivec 2 0 5 1) (ivec 0 0 (-1) 0) 4 10 /\ lo64 <= 1 <= 10 /\ entries_below mid (/ lo64) /\ from_axis (ivec 0 0 (-1) 0) = 0 /\ lo64 <= Rabs (vz (ivec 0 0 (-1) 0)) <= / lo64.
Proof.
  split; [apply mid_image64; lia|]. split; [apply mid_image64; lia|]. split; [exact line64|].
  split; [apply mid_reach; absolute; lra|]. pose proof lo64_small. pose proof lo64_sqr as (A & B & C). split; [lra|]. split; [exact mid_entries|].
  unfold from_axis, ivec. cbn [vx vy vz]. split; [ring|]. absolute. lra.
Qed.

(** ** C100: clear crossings of the curved part *)
Theorem C100_clear_crossings_of_paraboloids : forall rnd lo u eta, clear lo u eta -> 0 < u -> rounds_within u eta rnd ->
  forall o d f S, from_axis d <= / lo * / lo -> from_axis o <= S * S -> Rabs (vz o) <= S -> lo <= f -> f <= S -> let M := S + climb f d in
  ((exists t, from_bowl f (vadd o (vscale t d)) <= - (2048 * u * (M * M))) -> ~ fl_bowl_miss rnd f o d) /\
  ((forall t, 2048 * u * (M * M) <= from_bowl f (vadd o (vscale t d))) -> forall t0 t1, ~ fl_bowl_hits rnd f o d t0 t1).
Proof. intros rnd lo u eta CL UP RW o d f S HD HO HZ FL FS M. split; [exact (bowl_found rnd lo u eta CL UP RW o d f S HD HO HZ FL FS)|exact (bowl_missed rnd lo u eta CL UP RW o d f S HD HO HZ FL FS)]. Qed.
Print Assumptions C100_clear_crossings_of_paraboloids.
Theorem C100_sides_of_paraboloids : forall rnd lo u eta, clear lo u eta -> 0 < u -> rounds_within u eta rnd ->
  forall o d f S, from_axis d <= / lo * / lo -> from_axis o <= S * S -> Rabs (vz o) <= S -> lo <= f -> f <= S -> let M := S + climb f d in
  (4096 * u * (M * M) <= from_bowl f o -> 0 <= vx o * vx d + vy o * vy d - 2 * f * vz d -> forall t0 t1, fl_bowl_hits rnd f o d t0 t1 -> t0 < 0 /\ t1 < 0) /\
  (from_bowl f o <= - (4096 * u * (M * M)) -> ~ fl_bowl_miss rnd f o d /\ forall t0 t1, fl_bowl_hits rnd f o d t0 t1 -> t1 < 0 < t0).
Proof. intros rnd lo u eta CL UP RW o d f S HD HO HZ FL FS M. split; [exact (bowl_behind rnd lo u eta CL UP RW o d f S HD HO HZ FL FS)|exact (bowl_within rnd lo u eta CL UP RW o d f S HD HO HZ FL FS)]. Qed.
Print Assumptions C100_sides_of_paraboloids.
(** The ray from (-3, 0, 1) along x goes through the paraboloid of focal length 1; the ray from (-3, 0, -1) along x passes it; the
    ray from (3, 0, 1) leaves it behind; the ray from (0, 0, 1) is inside *)
Example C100_paraboloid_cases : from_axis (ivec 1 0 0 0) <= / lo64 * / lo64 /\ from_axis (ivec (-3) 0 1 1) <= 4 * 4 /\ Rabs (vz (ivec (-3) 0 1 1)) <= 4 /\ lo64 <= 1 <= 4 /\
  (let M := 4 + climb 1 (ivec 1 0 0 0) in
  from_bowl 1 (vadd (ivec (-3) 0 1 1) (vscale 3 (ivec 1 0 0 0))) <= - (2048 * u64 * (M * M)) /\ fl_bowl_hits binary64 1 (ivec (-3) 0 1 1) (ivec 1 0 0 0) 5 1 /\
  (forall t, 2048 * u64 * (M * M) <= from_bowl 1 (vadd (ivec (-3) 0 (-1) 1) (vscale t (ivec 1 0 0 0)))) /\
  (4096 * u64 * (M * M) <= from_bowl 1 (ivec 3 0 1 1) /\ 0 <= 3 * 1 + 0 * 0 - 2 * 1 * 0) /\ from_bowl 1 (ivec 0 0 1 1) <= - (4096 * u64 * (M * M))).
Proof.
  pose proof lo64_sqr as (A & B & D). pose proof lo64_small. rewrite u64_value.
  assert (CZ : climb 1 (ivec 1 0 0 0) = 0) by (unfold climb, ivec; cbn [vz]; rewrite Rabs_R0, Rmult_0_r; unfold Rdiv; rewrite Rmult_0_l; reflexivity). rewrite CZ.
  unfold from_bowl, from_axis, ivec, vadd, vscale. cbn [vx vy vz vw]. rewrite Rabs_R1.
  do 4 (split; [lra|]).
  split; [lra|]. split; [exact bowl_hits64|]. split; [intro t; pose proof (Rle_0_sqr (-3 + t * 1)) as Q; unfold Rsqr in Q; lra|]. split; [split; lra|lra].
Qed.

(** ** C112 *)
(** As in Props_Step.v.  The ray meets the curved part of the paraboloid of focal length [f].  [K] is the
    [S] of C99 and the length the ray climbs along the axis, before and after it met the surface. *)
Theorem C112_off_a_paraboloid : forall rnd lo u eta, clear lo u eta -> 0 < u -> rounds_within u eta rnd ->
  forall m f o d o' d' t S K, fl_image rnd m o o' -> fl_image rnd m d d' -> either (fl_bowl_hits rnd f o' d') t ->
  reach m o d t S -> lo <= f <= S -> entries_below m (/ lo) -> from_axis d' <= / lo * / lo -> Rabs (vz d') <= / lo -> S + climb f d' <= K ->
  forall h v o2 v2, let p := fl_move rnd o d t in
  0 < h <= 1 -> fl_image rnd m (fl_step rnd h p v) o2 -> fl_image rnd m v v2 -> reach m p v h S -> from_axis v2 <= / lo * / lo -> S + climb f v2 <= K ->
  (32768 * u * (K * K) <= h * rate_from_bowl m f p v -> forall t0 t1, fl_bowl_hits rnd f o2 v2 t0 t1 -> t0 < 0 /\ t1 < 0) /\
  (2 * (h * rate_from_bowl m f p v) + h * h * from_axis (mapply m v) <= - (65536 * u * (K * K)) ->
     ~ fl_bowl_miss rnd f o2 v2 /\ forall t0 t1, fl_bowl_hits rnd f o2 v2 t0 t1 -> t1 < 0 < t0).
Proof.
  intros rnd lo u eta CL UP RW m f o d o' d' t S K I1 I2 HT RE (FL & FS) EB D' DZ DK h v o2 v2 p HH J1 J2 RE2 V2 VK.
  pose proof (bowl_on rnd lo u eta CL RW m f o d o' d' t S I1 I2 HT RE (conj FL FS) EB D' DZ) as B. cbv zeta in B. fold p in B.
  destruct CL as ((L0 & L1) & CL2). assert (C0 : 0 <= climb f d').
  { unfold climb, Rdiv. apply Rmult_le_pos; [apply Rmult_le_pos; [lra|apply Rabs_pos]|].
    destruct (Req_dec (sqrt (from_axis d')) 0) as [-> | N]; [rewrite Rinv_0; lra|]. left. apply Rinv_0_lt_compat. pose proof (sqrt_pos (from_axis d')). lra. }
  assert (ON : Rabs (from_bowl f (mapply m p)) <= 32768 * u * (K * K)).
  { unfold from_bowl. eapply Rle_trans; [exact B|]. fold (climb f d'). apply Rmult_le_compat_l; [lra|]. apply Rmult_le_compat; lra. }
  assert (CL : clear lo u eta) by (split; auto). assert (KK : 0 <= u * (K * K)) by (apply Rmult_le_pos; nra).
  split; intros X; [apply (bowl_left rnd lo u eta CL UP RW m f h S K _ p v o2 v2 HH J1 J2 RE2 FL FS EB V2 VK ON)|apply (bowl_entered rnd lo u eta CL UP RW m f h S K _ p v o2 v2 HH J1 J2 RE2 FL FS EB V2 VK ON)]; lra.
Qed.
Print Assumptions C112_off_a_paraboloid.
(** Binary64 and the offset 1e-6 *)
Theorem C112_off_a_paraboloid_in_binary64 : forall m f o d o' d' t S K, fl_image binary64 m o o' -> fl_image binary64 m d d' -> either (fl_bowl_hits binary64 f o' d') t ->
  reach m o d t S -> lo64 <= f <= S -> entries_below m (/ lo64) -> from_axis d' <= / lo64 * / lo64 -> Rabs (vz d') <= / lo64 -> S + climb f d' <= K ->
  forall v o2 v2, let p := fl_move binary64 o d t in let h := fl_offset binary64 in
  fl_image binary64 m (fl_step binary64 h p v) o2 -> fl_image binary64 m v v2 -> reach m p v h S -> from_axis v2 <= / lo64 * / lo64 -> S + climb f v2 <= K ->
  (K * K / 250000 <= rate_from_bowl m f p v -> forall t0 t1, fl_bowl_hits binary64 f o2 v2 t0 t1 -> t0 < 0 /\ t1 < 0) /\
  (rate_from_bowl m f p v + h * from_axis (mapply m v) / 2 <= - (K * K / 250000) ->
     ~ fl_bowl_miss binary64 f o2 v2 /\ forall t0 t1, fl_bowl_hits binary64 f o2 v2 t0 t1 -> t1 < 0 < t0).
Proof.
  intros m f o d o' d' t S K I1 I2 HT RE FF EB D' DZ DK v o2 v2 p h J1 J2 RE2 V2 VK. pose proof offset64 as (H0 & H1). fold h in H0, H1.
  destruct (C112_off_a_paraboloid binary64 lo64 u64 eta64 clear64 u64_pos binary64_rounds m f o d o' d' t S K I1 I2 HT RE FF EB D' DZ DK h v o2 v2) as (A & B); auto; [lra|].
  assert (KK : 0 <= K * K) by nra. split; intros X.
  - apply A. fold p. apply Rle_trans with (h * (K * K / 250000)); [|apply Rmult_le_compat_l; lra].
    assert (0.999999 / 1000000 * (K * K / 250000) <= h * (K * K / 250000)) by (apply Rmult_le_compat_r; lra). rewrite u64_value. lra.
  - apply B. fold p. assert (Y : h * (rate_from_bowl m f p v + h * from_axis (mapply m v) / 2) <= h * - (K * K / 250000)) by (apply Rmult_le_compat_l; lra).
    assert (0.999999 / 1000000 * (K * K / 250000) <= h * (K * K / 250000)) by (apply Rmult_le_compat_r; lra). rewrite u64_value. lra.
Qed.
Print Assumptions C112_off_a_paraboloid_in_binary64.
(** The paraboloid of focal length 1, met from (-3, 0, 1) along x: the ray is sent back, or goes on *)
Example C112_paraboloid_case : fl_image binary64 mid (ivec (-3) 0 1 1) (ivec (-3) 0 1 1) /\ fl_image binary64 mid (ivec 1 0 0 0) (ivec 1 0 0 0) /\
  either (fl_bowl_hits binary64 1 (ivec (-3) 0 1 1) (ivec 1 0 0 0)) 1 /\ reach mid (ivec (-3) 0 1 1) (ivec 1 0 0 0) 1 10 /\ lo64 <= 1 <= 10 /\ entries_below mid (/ lo64) /\
  from_axis (ivec 1 0 0 0) <= / lo64 * / lo64 /\ Rabs (vz (ivec 1 0 0 0)) <= / lo64 /\ 10 + climb 1 (ivec 1 0 0 0) <= 10 /\
  forall s, s = 1%Z \/ s = (-1)%Z -> exists o2,
  let p := fl_move binary64 (ivec (-3) 0 1 1) (ivec 1 0 0 0) 1 in let h := fl_offset binary64 in let v := ivec s 0 0 0 in
  fl_image binary64 mid (fl_step binary64 h p v) o2 /\ fl_image binary64 mid v v /\ reach mid p v h 10 /\
  from_axis v <= / lo64 * / lo64 /\ 10 + climb 1 v <= 10 /\
  (s = (-1)%Z -> 10 * 10 / 250000 <= rate_from_bowl mid 1 p v) /\
  (s = 1%Z -> rate_from_bowl mid 1 p v + h * from_axis (mapply mid v) / 2 <= - (10 * 10 / 250000)).
Proof.
  destruct bowl_case64 as (A1 & A2 & A3 & A4 & A5 & A6 & A7 & A8).
  assert (CZ : forall s, 10 + climb 1 (ivec s 0 0 0) <= 10) by (intro s; unfold climb, ivec; cbn [vz]; rewrite Rabs_R0, Rmult_0_r; unfold Rdiv; rewrite Rmult_0_l; lra).
  repeat (split; [solve [auto]|]).
  intros s SS. destruct (image_exists binary64 mid (fl_step binary64 (fl_offset binary64) (fl_move binary64 (ivec (-3) 0 1 1) (ivec 1 0 0 0) 1) (ivec s 0 0 0))) as [o2 I]. exists o2. cbv zeta.
  assert (P : fl_move binary64 (ivec (-3) 0 1 1) (ivec 1 0 0 0) 1 = ivec (-2) 0 1 1).
  { unfold fl_move, vround, vadd, vscale, ivec. cbn [vx vy vz vw]. rewrite !Rmult_0_r, Rmult_1_r, !(ex 0), !(ex 1) by reflexivity. rewrite !Rplus_0_r.
    rewrite !(ex 0), (ex 1) by reflexivity. replace (-3 + 1) with (IZR (-2)) by (rewrite <- plus_IZR; reflexivity). rewrite (ex (-2)) by reflexivity. reflexivity. }
  rewrite P in *. pose proof offset64 as (H0 & H1). set (h := fl_offset binary64) in *. pose proof lo64_sqr as (A & B & C). pose proof lo64_small.
  split; [exact I|]. split; [destruct SS as [->| ->]; apply mid_image64; lia|].
  split; [|split; [|split; [apply CZ|split]]].
  - unfold reach, terms, mid, ivec. cbn [row0 row1 row2 vx vy vz vw]. rewrite !Rabs_mult, (Rabs_right h) by lra. destruct SS as [->| ->]; absolute; lra.
  - destruct SS as [->| ->]; unfold from_axis, ivec; cbn [vx vy]; lra.
  - intros ->. unfold rate_from_bowl, mid, ivec, mapply, vdot. cbn. lra.
  - intros ->. unfold rate_from_bowl, from_axis, mid, ivec, mapply, vdot. cbn. lra.
Qed.

(** A ray that leaves along the axis, where the code takes the quadratic term for 0, meets the surface behind it only; so does one
    that came along the axis, up to that term *)
Theorem C112_off_a_paraboloid_along_its_axis : forall rnd lo u eta, clear lo u eta -> 0 < u -> rounds_within u eta rnd ->
  forall m f o d o' d' t S E, fl_image rnd m o o' -> fl_image rnd m d d' -> reach m o d t S -> lo <= f <= S -> entries_below m (/ lo) -> from_axis d' <= / lo * / lo ->
  (either (fl_bowl_hits rnd f o' d') t /\ Rabs (vz d') <= / lo /\ E = 32768 * u * ((S + climb f d') * (S + climb f d')) \/
   fl_bowl_line rnd f o' d' t /\ lo <= Rabs (vz d') <= / lo /\ E = 256 * u * (S * S) + from_axis d' * (t * t)) ->
  forall h v o2 v2, let p := fl_move rnd o d t in
  lo <= h <= 1 -> fl_image rnd m (fl_step rnd h p v) o2 -> fl_image rnd m v v2 -> reach m p v h S ->
  ((E + 2048 * u * (S * S) <= h * rate_from_bowl m f p v \/ h * rate_from_bowl m f p v + h * h * from_axis (mapply m v) <= - (E + 2048 * u * (S * S))) ->
     forall t2, fl_bowl_line rnd f o2 v2 t2 -> t2 < 0) /\
  forall K, S + climb f v2 <= K -> from_axis v2 <= / lo * / lo ->
  (E + 8192 * u * (K * K) <= 2 * (h * rate_from_bowl m f p v) -> forall t0 t1, fl_bowl_hits rnd f o2 v2 t0 t1 -> t0 < 0 /\ t1 < 0) /\
  (2 * (h * rate_from_bowl m f p v) + h * h * from_axis (mapply m v) <= - (E + 8192 * u * (K * K)) ->
     ~ fl_bowl_miss rnd f o2 v2 /\ forall t0 t1, fl_bowl_hits rnd f o2 v2 t0 t1 -> t1 < 0 < t0).
Proof.
  intros rnd lo u eta CL UP RW m f o d o' d' t S E I1 I2 RE FF EB D' HT h v o2 v2 p HH J1 J2 RE2. destruct FF as (FL & FS).
  assert (ON : Rabs (from_bowl f (mapply m p)) <= E).
  { destruct HT as [(HT & DZ & ->)|(HT & DZ & ->)].
    - exact (bowl_on rnd lo u eta CL RW m f o d o' d' t S I1 I2 HT RE (conj FL FS) EB D' DZ).
    - exact (bowl_line_on rnd lo u eta CL UP RW m f o d o' d' t S I1 I2 HT RE (conj FL FS) EB D' DZ). }
  assert (L0 : 0 < lo) by (destruct CL as ((H & _) & _); exact H). assert (HH' : 0 < h <= 1) by lra.
  split; [exact (line_left rnd lo u eta CL UP RW m f h S E p v o2 v2 HH J1 J2 RE2 (conj FL FS) EB ON)|].
  intros K SK V2. split; [exact (bowl_left rnd lo u eta CL UP RW m f h S K E p v o2 v2 HH' J1 J2 RE2 FL FS EB V2 SK ON)|exact (bowl_entered rnd lo u eta CL UP RW m f h S K E p v o2 v2 HH' J1 J2 RE2 FL FS EB V2 SK ON)].
Qed.
Print Assumptions C112_off_a_paraboloid_along_its_axis.
(** The ray of [C99_axial_case], met in (2, 0, 1), goes on to the focus (0, 0, 1), or back up *)
Example C112_axial_case : forall v, v = ivec (-1) 0 0 0 \/ v = ivec 0 0 1 0 -> exists o2,
  let p := fl_move binary64 (ivec 2 0 5 1) (ivec 0 0 (-1) 0) 4 in let h := fl_offset binary64 in let E := 256 * u64 * (10 * 10) + from_axis (ivec 0 0 (-1) 0) * (4 * 4) in
  lo64 <= h <= 1 /\ fl_image binary64 mid (fl_step binary64 h p v) o2 /\ fl_image binary64 mid v v /\ reach mid p v h 10 /\
  (v = ivec 0 0 1 0 -> h * rate_from_bowl mid 1 p v + h * h * from_axis (mapply mid v) <= - (E + 2048 * u64 * (10 * 10))) /\
  (v = ivec (-1) 0 0 0 -> 10 + climb 1 v <= 10 /\ from_axis v <= / lo64 * / lo64 /\ 2 * (h * rate_from_bowl mid 1 p v) + h * h * from_axis (mapply mid v) <= - (E + 8192 * u64 * (10 * 10))).
Proof.
  intros v VV. destruct (image_exists binary64 mid (fl_step binary64 (fl_offset binary64) (fl_move binary64 (ivec 2 0 5 1) (ivec 0 0 (-1) 0) 4) v)) as [o2 I]. exists o2. cbv zeta.
  assert (P : fl_move binary64 (ivec 2 0 5 1) (ivec 0 0 (-1) 0) 4 = ivec 2 0 1 1).
  { unfold fl_move, vround, vadd, vscale, ivec. cbn [vx vy vz vw]. replace (4 * -1) with (IZR (-4)) by (rewrite <- mult_IZR; reflexivity). rewrite !Rmult_0_r, !(ex 0), !(ex (-4)) by reflexivity. rewrite !Rplus_0_r.
    rewrite (ex 2), (ex 0), (ex 1) by reflexivity. replace (5 + -4) with (IZR 1) by (rewrite <- plus_IZR; reflexivity). rewrite (ex 1) by reflexivity. reflexivity. }
  rewrite P in *. pose proof offset64 as (H0 & H1). set (h := fl_offset binary64) in *. pose proof lo64_sqr as (A & B & C). pose proof clear64 as ((_ & L) & _).
  split; [lra|]. split; [exact I|]. split; [destruct VV as [->| ->]; apply mid_image64; lia|].
  split; [|split].
  - destruct VV as [->| ->]; unfold reach, terms, mid, ivec; cbn [row0 row1 row2 vx vy vz vw]; rewrite !Rabs_mult, (Rabs_right h) by lra; absolute; lra.
  - intros ->. rewrite u64_value. unfold rate_from_bowl, from_axis, mid, ivec, mapply, vdot. cbn. nra.
  - intros ->. rewrite u64_value. split; [unfold climb, ivec; cbn [vz]; rewrite Rabs_R0, Rmult_0_r; unfold Rdiv; rewrite Rmult_0_l; lra|]. split; [unfold from_axis, ivec; cbn [vx vy]; lra|].
    unfold rate_from_bowl, from_axis, mid, ivec, mapply, vdot. cbn. nra.
Qed.
