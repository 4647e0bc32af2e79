(** * Props_FlOptics: the property theorems about rounded optics (C106) *)
From Coq Require Import Reals List Bool ZArith Lra Lia.
Import ListNotations.
From Flocq Require Import Core.
From Verif Require Import XR Lin Fl SpecFl FlFacts FlProps FlBinary FlExamples SpecOptics SpecFlOptics FlOptics FlOpticsExamples.
Open Scope R_scope.

(** ** C106: computed reflections and refractions obey the laws of optics up to rounding
    [u] and [eta] bound the relative and the absolute error of one operation. *)

(** The normal a surface reports is the exact normal, or its opposite, up to 20 roundings *)
Theorem C106_normals_point_along_the_exact_normal : forall rnd u eta, 0 <= u <= / 1000000 -> 0 <= eta <= u * / 1000000 -> rounds_within u eta rnd ->
  forall raw n, sizeable u eta raw -> fl_normal rnd raw n ->
  exists N, (N = hat raw \/ N = vopp (hat raw)) /\ unit N /\ vnorm (vsub n N) <= 20 * u.
Proof. intros rnd u eta (U0 & U1) (E0 & E1) RW. exact (normal_close rnd u eta U0 E0 RW U1 E1). Qed.
Print Assumptions C106_normals_point_along_the_exact_normal.

(** A mirror obeys the law of reflection up to 256 roundings, about the exact normal *)
Theorem C106_mirrors_obey_the_law_of_reflection : forall rnd u eta, 0 <= u <= / 1000000 -> 0 <= eta <= u * / 1000000 -> rounds_within u eta rnd ->
  forall v n N d, vnorm v <= 2 -> unit N -> vnorm (vsub n N) <= 20 * u -> fl_reflect rnd v n d -> nearly_mirrored (256 * u) v d N.
Proof. intros rnd u eta (U0 & U1) (E0 & E1) RW. exact (reflect_lawful rnd u eta U0 E0 RW U1 E1). Qed.
Print Assumptions C106_mirrors_obey_the_law_of_reflection.

(** A glass obeys Snell's law up to 4096 roundings at every angle of incidence, also next to the
    critical angle: the ray is refracted, or reflected at an angle that is critical up to 4096 roundings *)
Theorem C106_glasses_obey_snells_law : forall rnd u eta, 0 <= u <= / 1000000 -> 0 <= eta <= u * / 1000000 -> rounds_within u eta rnd ->
  forall v n N n1 n2 n_global d index, sizeable u eta v -> unit N -> vnorm (vsub n N) <= 20 * u ->
  0 < n1 -> 0 < n2 -> 0 < n_global -> n1 <= 4 * n2 -> n1 <= 4 * n_global ->
  fl_refract rnd v n n1 n2 n_global d index -> nearly_lawful (4096 * u) v N n1 n2 n_global d index.
Proof. intros rnd u eta (U0 & U1) (E0 & E1) RW. exact (refract_lawful rnd u eta U0 E0 RW U1 E1). Qed.
Print Assumptions C106_glasses_obey_snells_law.

(** Every interaction of a journey is lawful, however many came before it (up to [512 (g + 1) u <= 1/2]) *)
Theorem C106_every_interaction_is_lawful : forall rnd u eta, 0 <= u <= / 1000000 -> 0 <= eta <= u * / 1000000 -> rounds_within u eta rnd ->
  forall g v raw n, 512 * (INR g + 1) * u <= / 2 -> journey rnd u eta g v -> sizeable u eta raw -> fl_normal rnd raw n ->
  exists N, (N = hat raw \/ N = vopp (hat raw)) /\ unit N /\
  (forall d, fl_reflect rnd v n d -> nearly_mirrored (256 * u) v d N) /\
  (forall n1 n2 n_global d index, 0 < n1 -> 0 < n2 -> 0 < n_global -> n1 <= 4 * n2 -> n1 <= 4 * n_global ->
     fl_refract rnd v n n1 n2 n_global d index -> nearly_lawful (4096 * u) v N n1 n2 n_global d index).
Proof.
  intros rnd u eta (U0 & U1) (E0 & E1) RW g v raw n B J SR F. destruct (normal_close rnd u eta U0 E0 RW U1 E1 raw n SR F) as (N & H & UN & CN).
  pose proof (journey_unit rnd u eta U0 E0 RW U1 E1 g v J B) as D. apply abs_le_both in D. pose proof (pos_INR g) as G0.
  exists N. split; [exact H|]. split; [exact UN|]. split.
  - intros d R. apply (reflect_lawful rnd u eta U0 E0 RW U1 E1 v n N d); auto. lra.
  - intros n1 n2 ng d index P1 P2 P3 Q2 Q3 R. apply (refract_lawful rnd u eta U0 E0 RW U1 E1 v n N n1 n2 ng d index); auto.
    unfold sizeable. rewrite <- vnorm_sqr. assert (KK : / 4 <= vnorm v * vnorm v) by nra. split; [lra|]. assert (u * / 4 <= u * (vnorm v * vnorm v)) by (apply Rmult_le_compat_l; lra). lra.
Qed.
Print Assumptions C106_every_interaction_is_lawful.

(** In binary64 the errors are 2^-45 and 2^-41 *)
Theorem C106_binary64 : forall raw n, sizeable u64 eta64 raw -> fl_normal binary64 raw n ->
  exists N, (N = hat raw \/ N = vopp (hat raw)) /\ unit N /\
  (forall v d, vnorm v <= 2 -> fl_reflect binary64 v n d -> nearly_mirrored (bpow radix2 (-45)) v d N) /\
  (forall v n1 n2 n_global d index, sizeable u64 eta64 v -> 0 < n1 -> 0 < n2 -> 0 < n_global -> n1 <= 4 * n2 -> n1 <= 4 * n_global ->
     fl_refract binary64 v n n1 n2 n_global d index -> nearly_lawful (bpow radix2 (-41)) v N n1 n2 n_global d index).
Proof.
  intros raw n SR F. destruct u64_small as (U0 & U1). destruct eta64_small as (E0 & E1). pose proof binary64_rounds as RW.
  destruct (normal_close binary64 u64 eta64 U0 E0 RW U1 E1 raw n SR F) as (N & H & UN & CN). exists N. split; [exact H|]. split; [exact UN|].
  assert (B1 : bpow radix2 (-45) = 256 * u64). { unfold u64. change 256 with (bpow radix2 8). rewrite <- bpow_plus. reflexivity. }
  assert (B2 : bpow radix2 (-41) = 4096 * u64). { unfold u64. change 4096 with (bpow radix2 12). rewrite <- bpow_plus. reflexivity. }
  rewrite B1, B2. split.
  - intros v d V R. exact (reflect_lawful binary64 u64 eta64 U0 E0 RW U1 E1 v n N d V UN CN R).
  - intros v n1 n2 ng d index SV P1 P2 P3 Q2 Q3 R. exact (refract_lawful binary64 u64 eta64 U0 E0 RW U1 E1 v n N n1 n2 ng d index SV UN CN P1 P2 P3 Q2 Q3 R).
Qed.
Print Assumptions C106_binary64.

(** A ray at 45 degrees meets a mirror, or a glass of index 1.5 *)
Example C106_case : sizeable u64 eta64 (up_z 1) /\ fl_normal binary64 (up_z 1) (up_z 1) /\ vnorm down_right <= 2 /\ sizeable u64 eta64 down_right /\
  (exists d, fl_reflect binary64 down_right (up_z 1) d) /\ (exists d index, fl_refract binary64 down_right (up_z 1) 1 (3 / 2) 1 d index).
Proof.
  split; [apply sizeable_axis; auto|]. split; [exact normal_axis|]. split; [exact down_right_norm|]. split; [exact down_right_sizeable|].
  split; [exact slanted_mirror|exact slanted_glass].
Qed.
