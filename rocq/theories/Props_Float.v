(** * Props_Float: the property theorems about rounding (C94) *)
From Coq Require Import Reals List Bool ZArith Lra Lia.
Import ListNotations.
From Flocq Require Import Core.
From Verif Require Import XR Lin Rounded SpecRounded Fl SpecFl FlFacts FlProps FlTrace FlBinary FlExamples.
Open Scope R_scope.

(** ** C94: directions keep unit length under rounding
    [u] and [eta] bound the relative and the absolute error of one operation. *)

(** A normalised vector, and a surface normal, has length 1 up to 20 roundings *)
Theorem C94_normalised_vectors_are_unit : forall rnd u eta, 0 <= u <= / 1000000 -> 0 <= eta <= u * / 1000000 -> rounds_within u eta rnd ->
  forall v, sizeable u eta v ->
  (forall d, fl_normalize rnd v d -> Rabs (vnorm d - 1) <= 20 * u) /\ (forall n, fl_normal rnd v n -> Rabs (vnorm n - 1) <= 20 * u).
Proof.
  intros rnd u eta (U0 & U1) (E0 & E1) RW v SZ. split; intros w F.
  - eapply normalize_unit; eauto.
  - eapply normal_unit; eauto.
Qed.
Print Assumptions C94_normalised_vectors_are_unit.

(** A glass sets the length of any direction to 1 up to 20 roundings, whatever it was *)
Theorem C94_glass_forgets_the_length : forall rnd u eta, 0 <= u <= / 1000000 -> 0 <= eta <= u * / 1000000 -> rounds_within u eta rnd ->
  forall v raw n n1 n2 n_global d index, sizeable u eta v -> sizeable u eta raw -> fl_normal rnd raw n ->
  0 < n1 -> 0 < n2 -> 0 < n_global -> n1 <= 4 * n2 -> n1 <= 4 * n_global ->
  fl_refract rnd v n n1 n2 n_global d index -> Rabs (vnorm d - 1) <= 20 * u.
Proof. intros rnd u eta (U0 & U1) (E0 & E1) RW v raw n n1 n2 ng d index SV SR N P1 P2 P3 Q2 Q3 F.
  exact (refract_unit rnd u eta U0 E0 RW U1 E1 v n n1 n2 ng d index SV (normal_unit rnd u eta U0 E0 RW U1 E1 raw n SR N) P1 P2 P3 Q2 Q3 F).
Qed.
Print Assumptions C94_glass_forgets_the_length.

(** After [g] interactions the length is 1 up to 512 (g + 1) roundings *)
Theorem C94_directions_keep_unit_length : forall rnd u eta, 0 <= u <= / 1000000 -> 0 <= eta <= u * / 1000000 -> rounds_within u eta rnd ->
  forall g d, 512 * (INR g + 1) * u <= / 2 -> journey rnd u eta g d -> Rabs (vnorm d - 1) <= 512 * (INR g + 1) * u.
Proof. intros rnd u eta (U0 & U1) (E0 & E1) RW g d B J. eapply journey_unit; eauto. Qed.
Print Assumptions C94_directions_keep_unit_length.

(** In binary64 that is (g + 1) 2^-44, for up to 2^43 - 1 interactions *)
Theorem C94_directions_keep_unit_length_in_binary64 : forall g d, (Z.of_nat g < 2 ^ 43)%Z -> journey binary64 u64 eta64 g d ->
  Rabs (vnorm d - 1) <= (INR g + 1) * bpow radix2 (-44).
Proof.
  intros g d B J. assert (E : 512 * (INR g + 1) * u64 = (INR g + 1) * bpow radix2 (-44)).
  { unfold u64. change 512 with (bpow radix2 9). rewrite (Rmult_comm (bpow radix2 9)), Rmult_assoc, <- bpow_plus. reflexivity. }
  rewrite <- E. apply (journey_unit binary64 u64 eta64); auto; try apply u64_small; try apply eta64_small; [apply binary64_rounds|].
  rewrite E. assert (L : INR g + 1 <= bpow radix2 43).
  { rewrite INR_IZR_INZ. change 1 with (IZR 1). rewrite <- plus_IZR. change (bpow radix2 43) with (IZR (2 ^ 43)). apply IZR_le. lia. }
  apply Rle_trans with (bpow radix2 43 * bpow radix2 (-44)).
  - apply Rmult_le_compat_r; [apply bpow_ge_0|exact L].
  - rewrite <- bpow_plus. apply Req_le. reflexivity.
Qed.
Print Assumptions C94_directions_keep_unit_length_in_binary64.

(** Such a direction is not taken for that of an absorbed ray, and its recorded tilt has length 1 up
    to 20 roundings *)
Theorem C94_live_rays_are_not_taken_for_absorbed : forall rnd u eta, 0 <= u <= / 1000000 -> 0 <= eta <= u * / 1000000 -> rounds_within u eta rnd ->
  forall g d, 512 * (INR g + 1) * u <= / 2 -> journey rnd u eta g d ->
  (forall s, fl_norm rnd d s -> isclose s 0 = false) /\ (forall t, fl_normalize rnd d t -> Rabs (vnorm t - 1) <= 20 * u).
Proof.
  intros rnd u eta (U0 & U1) (E0 & E1) RW g d B J. split.
  - intros s F. exact (journey_alive rnd u eta U0 E0 RW U1 E1 g d s J B F).
  - intros t F. exact (journey_tilt rnd u eta U0 E0 RW U1 E1 g d t J B F).
Qed.
Print Assumptions C94_live_rays_are_not_taken_for_absorbed.

(** In a trace with rounding, a ray that met only mirrors and glasses has one row for every generation
    up to the limit, or it left the scene *)
Theorem C94_rays_end_only_where_they_should : forall rnd u eta, 0 <= u <= / 1000000 -> 0 <= eta <= u * / 1000000 -> rounds_within u eta rnd ->
  forall K O dir, ray_by_ray K O -> optical rnd K O dir ->
  forall table (absorbing : Z -> Prop), NoDup (map fst table) ->
  (forall z s, In (z, s) table -> ~ absorbing z -> is_mirror rnd u eta K O dir s \/ is_glass rnd u eta K O dir s) ->
  forall fuel limit rays rows, n_trace K fuel table limit rays = Finished rows -> Forall (fun c : ncol K => n_gen c = 0%nat) rays ->
  (1 <= limit)%Z -> 512 * (IZR limit + 1) * u <= / 2 ->
  forall i c, nth_error rays i = Some c -> Rabs (vnorm (dir (n_beam c)) - 1) <= 512 * u ->
  (forall w, In w (of_ray i rows) -> ~ absorbing (nr_surf w)) ->
  Z.of_nat (length (of_ray i rows)) = limit \/
  exists c', after K O table (length (of_ray i rows)) (set_id K i c) = Some c' /\ snd (o_hit K O (n_beam c')) = (-1)%Z.
Proof. intros rnd u eta (U0 & U1) (E0 & E1) RW. exact (rays_end_where_they_should rnd u eta U0 E0 RW U1 E1). Qed.
Print Assumptions C94_rays_end_only_where_they_should.

(** Binary64, rounding to nearest, satisfies the hypotheses on [u], [eta] and [rnd] *)
Theorem C94_binary64_rounds : 0 <= u64 <= / 1000000 /\ 0 <= eta64 <= u64 * / 1000000 /\ rounds_within u64 eta64 binary64.
Proof. split; [exact u64_small|]. split; [exact eta64_small|exact binary64_rounds]. Qed.
Print Assumptions C94_binary64_rounds.

(** A ray that meets a mirror and then a glass; a trace in which a ray meets a mirror and leaves *)
Example C94_case : journey binary64 u64 eta64 2 (up_z (-1)).
Proof. exact a_journey. Qed.
Example C94_trace_case : ray_by_ray k64 one64 /\ optical binary64 k64 one64 (fun v => v) /\ NoDup (map fst [(5%Z, tt)]) /\
  (forall z s, In (z, s) [(5%Z, tt)] -> ~ False -> is_mirror binary64 u64 eta64 k64 one64 (fun v => v) s \/ is_glass binary64 u64 eta64 k64 one64 (fun v => v) s) /\
  Rabs (vnorm (n_beam ray64) - 1) <= 512 * u64 /\ exists w, n_trace k64 10 [(5%Z, tt)] 10 [ray64] = Finished [w] /\ nr_surf w = 5%Z.
Proof. exact float_case. Qed.
