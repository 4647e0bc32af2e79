(** * Props_Sources: properties C48-C51 and C75, the light sources *)
From Coq Require Import Reals Lra Lia List Bool ZArith.
Import ListNotations.
From Verif Require Import XR Lin LinFacts SpecOptics World Tracer SpecTrace Sources SpecSources SourceProps LampProps LampExact.
Open Scope R_scope.

(** ** C48 *)
(** n rays along +x, evenly spaced over [-s/2, s/2] on the y axis *)
Theorem C48_line_of_rays : forall rnd s wl p n, exists rays,
  emits rnd (LineOfRays s) wl mid p n rays /\ length rays = n /\
  (forall k c, nth_error rays k = Some c ->
     fresh_ray wl k c /\ c_int c = 100 /\ direction (c_ray c) = x_axis /\
     exists y, origin (c_ray c) = point 0 y 0 /\
       (n = 1%nat -> y = 0) /\ ((1 < n)%nat -> y = - s / 2 + s * (INR k / INR (n - 1)))) /\
  (s <> 0 -> NoDup (map c_ray rays)).
Proof. exact line_bundle. Qed.
Print Assumptions C48_line_of_rays.

(** n parallel rays on the circle of the given diameter.  Missing: they are n different
    rays; see the next theorem. *)
Theorem C48_circle_of_rays_partial : forall rnd d wl p n, exists rays,
  emits rnd (CircleOfRays d) wl mid p n rays /\ length rays = n /\
  (forall k c, nth_error rays k = Some c ->
     fresh_ray wl k c /\ c_int c = 100 /\ direction (c_ray c) = x_axis /\
     exists a, origin (c_ray c) = point 0 (d / 2 * sin a) (d / 2 * cos a) /\
       ((1 < n)%nat -> a = 2 * PI * (INR k / INR (n - 1)))).
Proof. exact circle_bundle. Qed.
Print Assumptions C48_circle_of_rays_partial.

(** With two or more rays, the first and the last are the same ray. *)
Theorem C48_circle_rays_distinct_refuted : forall rnd d wl p n rays, (1 < n)%nat ->
  emits rnd (CircleOfRays d) wl mid p n rays ->
  exists c c', nth_error rays 0 = Some c /\ nth_error rays (n - 1) = Some c' /\ c_ray c = c_ray c'.
Proof. exact circle_repeats. Qed.
Print Assumptions C48_circle_rays_distinct_refuted.
Example C48_circle_hypotheses : exists rays, emits (fun _ => 0) (CircleOfRays 2) (1/2) mid 0 5 rays /\ (1 < 5)%nat.
Proof. destruct (circle_bundle (fun _ => 0) 2 (1/2) 0 5) as [rays [E _]]. exists rays. split; [exact E|lia]. Qed.

(** Rays from one point, each at the cone angle, evenly spread around the axis.  Missing:
    the case n = 1; see the next theorem. *)
Theorem C48_cone_of_rays_partial : forall rnd a wl p n, 0 <= a <= 180 -> n <> 1%nat -> exists rays,
  emits rnd (ConeOfRays a) wl mid p n rays /\ length rays = n /\
  (forall k c, nth_error rays k = Some c ->
     fresh_ray wl k c /\ c_int c = 100 /\ origin (c_ray c) = point 0 0 0 /\
     unit (direction (c_ray c)) /\ at_angle (direction (c_ray c)) x_axis (radians a) /\
     let b := 2 * PI * (INR k / INR n) in
     direction (c_ray c) = vector (cos (radians a)) (sin (radians a) * sin b) (sin (radians a) * cos b)) /\
  (0 < a < 180 -> NoDup (map c_ray rays)).
Proof. exact cone_bundle. Qed.
Print Assumptions C48_cone_of_rays_partial.
Example C48_cone_hypotheses : 0 <= 30 <= 180 /\ 7%nat <> 1%nat /\ 0 < 30 < 180.
Proof. repeat split; try lra. lia. Qed.

(** A cone of one ray emits it along the axis, not at the cone angle. *)
Theorem C48_single_cone_ray_refuted : forall rnd a wl p, 0 < a < 90 ->
  exists c, emits rnd (ConeOfRays a) wl mid p 1 [c] /\ direction (c_ray c) = x_axis /\
    ~ at_angle (direction (c_ray c)) x_axis (radians a).
Proof. exact single_cone_ray. Qed.
Print Assumptions C48_single_cone_ray_refuted.
Example C48_single_cone_hypotheses : 0 < 45 < 90. Proof. lra. Qed.

(** Rays from one point in the xy plane, at evenly spaced angles over [-a/2, a/2] *)
Theorem C48_wedge_of_rays : forall rnd a wl p n, exists rays,
  emits rnd (WedgeOfRays a) wl mid p n rays /\ length rays = n /\
  (forall k c, nth_error rays k = Some c ->
     fresh_ray wl k c /\ c_int c = 100 /\ origin (c_ray c) = point 0 0 0 /\
     exists b, direction (c_ray c) = vector (cos b) (sin b) 0 /\
       (n = 1%nat -> b = - radians a / 2) /\
       ((1 < n)%nat -> b = - radians a / 2 + radians a * (INR k / INR (n - 1)))) /\
  (0 < a < 360 -> NoDup (map c_ray rays)).
Proof. exact wedge_bundle. Qed.
Print Assumptions C48_wedge_of_rays.

(** ** C49 *)
(** A source moved by the invertible transform [m] emits, ray by ray, what it emits at the
    origin, carried by [m]; and these rays are what the tracer expects. *)
Theorem C49_placed_sources_emit_placed_rays : forall rnd s wl m i p n rays,
  is_inverse m i -> affine m -> emits rnd s wl mid p n rays ->
  exists rays', emits rnd s wl m p n rays' /\ Forall2 (carried m) rays rays' /\
    forall c, In c rays' -> ray_ok c /\ c_gen c = O.
Proof. exact emits_ok. Qed.
Print Assumptions C49_placed_sources_emit_placed_rays.
Example C49_hypotheses : exists rays i, is_inverse shift5 i /\ affine shift5 /\
  emits (fun _ => 0) (WedgeOfRays 20) (1/2) mid 0 3 rays /\ length rays = 3%nat.
Proof.
  destruct (wedge_bundle (fun _ => 0) 20 (1/2) 0 3) as [rays [E [L _]]].
  exists rays, (M4 (V4 1 0 0 (-5)) (V4 0 1 0 0) (V4 0 0 1 0) (V4 0 0 0 1)).
  repeat split; auto; unfold shift5, mmul, mtrans, mapply, vdot, mid; simpl; f_equal; f_equal; ring.
Qed.

(** ** C50 *)
(** Whatever numbers the random generator returns, lamp rays start on the lamp, stay within
    max_angle of the axis, and carry the intensity of Lambert's law. *)
Theorem C50_lamp_rays_within_lamp_and_cone : forall rnd w l a wl p n,
  sampler rnd -> 0 <= w -> 0 <= l -> 0 <= a <= 180 -> exists rays,
  emits rnd (Lamp w l a) wl mid p n rays /\ length rays = n /\
  (forall k c, nth_error rays k = Some c ->
     fresh_ray wl k c /\ unit (direction (c_ray c)) /\
     (exists y z, origin (c_ray c) = point 0 y z /\ - w / 2 <= y <= w / 2 /\ - l / 2 <= z <= l / 2) /\
     (exists t, at_angle (direction (c_ray c)) x_axis t /\ t <= radians a /\ c_int c = 100 * cos t)).
Proof. exact lamp_bundle. Qed.
Print Assumptions C50_lamp_rays_within_lamp_and_cone.
Example C50_hypotheses : sampler half_or_none /\ 0 <= 2 /\ 0 <= 3 /\ 0 <= 90 <= 180.
Proof. split; [exact half_sampler|lra]. Qed.

(** ** C75 *)
(** The direction of ray k is within the angle t of the axis exactly when its random number
    is at most (1 - cos t) / (1 - cos max_angle), the share of the cone's solid angle that
    lies within t; its azimuth is 2 pi times another random number. *)
Theorem C75_lamp_directions_follow_solid_angle : forall rnd w l a wl p n t,
  sampler rnd -> 0 < a <= 180 -> 0 <= t <= radians a -> exists rays,
  emits rnd (Lamp w l a) wl mid p n rays /\ length rays = n /\
  (forall k c, nth_error rays k = Some c -> exists theta,
     at_angle (direction (c_ray c)) x_axis theta /\
     (theta <= t <-> rnd (p + k)%nat <= (1 - cos t) / (1 - cos (radians a))) /\
     direction (c_ray c) = vector (cos theta) (sin theta * cos (2 * PI * rnd (p + n + k)%nat))
                                              (sin theta * sin (2 * PI * rnd (p + n + k)%nat))).
Proof. exact lamp_uniform. Qed.
Print Assumptions C75_lamp_directions_follow_solid_angle.
Example C75_hypotheses : sampler half_or_none /\ 0 < 90 <= 180 /\ 0 <= radians 45 <= radians 90.
Proof. split; [exact half_sampler|]. split; [lra|]. unfold radians. pose proof PI_RGT_0. nra. Qed.

(** ** C51 *)
(** A static lamp repeats its answer as long as at most nine other requests (of any lamps)
    were made since.  Missing: longer histories; see the next theorem. *)
Theorem C51_static_lamp_repeats_partial : forall rnd s i n r cs,
  answer rnd s i n = Some r -> at_most 9 (other_requests i n cs) ->
  answer rnd (lamp_run rnd (Generate i n :: cs) s) i n = Some r.
Proof. exact repeats_while_cached. Qed.
Print Assumptions C51_static_lamp_repeats_partial.
Example C51_repeats_hypotheses : at_most 9 (other_requests 0 4
  (map (Generate 0) [4; 5; 6; 4; 7; 5; 8; 9; 10; 11]%nat ++ [MoveLamp 0 shift5; NewLamp 1 2 30 (1/2); Generate 1 4])).
Proof.
  exists [(0, 5); (0, 6); (0, 7); (0, 8); (0, 9); (0, 10); (0, 11); (1, 4)]%nat. split; [simpl; lia|].
  intros k I. cbn in I. simpl. intuition congruence.
Qed.

(** After eleven different requests the lamp answers the first one with other rays. *)
Theorem C51_static_lamp_repeats_refuted : sampler half_or_none /\ exists r r',
  let s := lamp_run half_or_none [NewLamp 1 1 90 (633/1000)] no_lamps in
  answer half_or_none s 0 1 = Some r /\
  answer half_or_none (lamp_run half_or_none eleven s) 0 1 = Some r' /\ r <> r'.
Proof. exact (conj half_sampler evicted_case). Qed.
Print Assumptions C51_static_lamp_repeats_refuted.

(** Exactly: ask a lamp, make any other calls that do not ask it for as many rays again, then ask it again.  It
    repeats its answer if at most nine different other requests came between; otherwise the answer is made anew
    from where the lamp stands now, with its wavelength of now and the random numbers that come next.  (Between
    repeated requests apply the theorem again; the lamps asked exist already.) *)
Theorem C51_static_lamp_exactly : forall rnd cs0 cs i n r, let s := lamp_run rnd cs0 no_lamps in
  answer rnd s i n = Some r ->
  (forall j m, In (Generate j m) cs -> (j < length (ls_lamps s))%nat /\ (j, m) <> (i, n)) ->
  let s' := lamp_run rnd (Generate i n :: cs) s in
  (at_most 9 (other_requests i n cs) -> answer rnd s' i n = Some r) /\
  (~ at_most 9 (other_requests i n cs) -> exists x, nth_error (ls_lamps s') i = Some x /\
     answer rnd s' i n = Some (fst (generate_rays rnd (l_source x) (l_wl x) (l_world x) (ls_pos s') n))).
Proof. exact exactly_repeats. Qed.
Print Assumptions C51_static_lamp_exactly.
Example C51_exactly_hypotheses : forall rnd, let cs := map (Generate 0) [2; 3; 4; 5; 6; 7; 8; 9; 10; 11]%nat in
  (forall j m, In (Generate j m) cs -> (j < length (ls_lamps (lamp_run rnd [NewLamp 1 1 90 (1/2)] no_lamps)))%nat /\ (j, m) <> (0, 1)%nat) /\
  ~ at_most 9 (other_requests 0 1 cs) /\ at_most 9 (other_requests 0 1 (tl cs)).
Proof.
  intros rnd cs. split; [|split].
  - intros j m I. unfold cs in I. simpl in I. simpl. split; [|intro X; injection X as -> ->]; repeat (destruct I as [I|I]; [injection I as <- <-; lia|]); try tauto; repeat (destruct I as [I|I]; [discriminate I|]); destruct I.
  - intros (l & L & I). assert (N : NoDup (other_requests 0 1 cs)) by (cbn; repeat (constructor; [cbn; intuition congruence|]); constructor).
    apply (NoDup_incl_length N) in I. cbn in I. lia.
  - exists (other_requests 0 1 (tl cs)). split; [cbn; lia|]. intros x X. exact X.
Qed.

(** Whatever happened to a lamp before it was first used: while it is neither moved nor given
    another wavelength afterwards, its rays are those of its current place.  Missing: lamps
    that are moved after their first use; see the next theorem. *)
Theorem C51_static_lamp_matches_its_place_partial : forall rnd i n r cs1 cs2,
  never_asked i cs1 -> untouched i cs2 ->
  let s := lamp_run rnd (cs1 ++ cs2) no_lamps in
  answer rnd s i n = Some r -> exists x, nth_error (ls_lamps s) i = Some x /\ emitted_here rnd x n r.
Proof. exact unmoved_matches. Qed.
Print Assumptions C51_static_lamp_matches_its_place_partial.
Example C51_place_hypotheses :
  let cs1 := [NewLamp 1 1 90 (1/2); NewLamp 1 1 90 (1/2); MoveLamp 0 shift5; Generate 1 3] in
  let cs2 := [Generate 0 3; MoveLamp 1 shift5; Generate 0 4] in
  never_asked 0 cs1 /\ untouched 0 cs2 /\
  exists r, answer half_or_none (lamp_run half_or_none (cs1 ++ cs2) no_lamps) 0 3 = Some r.
Proof.
  split; [|split].
  - intros n I. simpl in I. intuition congruence.
  - repeat constructor. discriminate.
  - eexists. unfold answer. simpl. reflexivity.
Qed.

(** A lamp that is moved after its first use goes on emitting from its old place. *)
Theorem C51_static_lamp_matches_its_place_refuted : forall rnd, exists r x,
  let s := lamp_run rnd moved_history no_lamps in
  answer rnd s 0 1 = Some r /\ nth_error (ls_lamps s) 0 = Some x /\ ~ emitted_here rnd x 1 r.
Proof. exact moved_lamp_case. Qed.
Print Assumptions C51_static_lamp_matches_its_place_refuted.
