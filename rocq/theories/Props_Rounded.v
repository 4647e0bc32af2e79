(** * Property C93: the bookkeeping of a trace survives any rounding *)
From Coq Require Import Reals List Bool ZArith Sorted.
Import ListNotations.
From Verif Require Import XR Lin Prim Csg Surf World Tracer SpecTrace CsgProps WorldExamples TraceExamples TraceProps
  Rounded SpecRounded RoundedFacts RoundedProps RoundedAlone RoundedExact RoundedExamples.

(** ** C93 *)
(** [K] is any arithmetic: rounding, overflow and nan included.  Whatever it does, a trace with a
    positive limit ends after at most that many generations. *)
Theorem C93_trace_ends_whatever_the_rounding :
  forall K fuel table limit rays, (1 <= limit)%Z -> (Z.to_nat limit <= fuel)%nat ->
  n_trace K fuel table limit rays <> Running /\
  forall fuel', (fuel <= fuel')%nat -> n_trace K fuel' table limit rays = n_trace K fuel table limit rays.
Proof. exact trace_always_ends. Qed.
Print Assumptions C93_trace_ends_whatever_the_rounding.

(** The rows of a ray are its generations 0, 1, 2, ... without a gap, fewer than the limit; the frame
    is ordered by generation, then by id; every row names a surface, an id the sources gave out,
    and that ray's wavelength and intensity. *)
Theorem C93_rows_well_formed_whatever_the_rounding :
  forall K fuel table limit rays rows, Forall (fun c : ncol K => n_gen c = 0%nat) rays -> (1 <= limit)%Z ->
  n_trace K fuel table limit rays = Finished rows ->
  (forall i, exists k, (Z.of_nat k <= limit)%Z /\ map nr_gen (of_ray i rows) = seq 0 k) /\
  StronglySorted before rows /\ (Z.of_nat (length rows) <= limit * Z.of_nat (length rays))%Z /\
  forall w, In w rows -> nr_surf w <> (-1)%Z /\ exists c, nth_error rays (nr_id w) = Some c /\ nr_wl w = n_wl c /\ nr_int w = n_int c.
Proof. exact trace_well_formed. Qed.
Print Assumptions C93_rows_well_formed_whatever_the_rounding.

(** A smaller limit gives the rows of the generations below it, bit for bit. *)
Theorem C93_smaller_limits_cut_whatever_the_rounding :
  forall K fuel table limit limit' rays rows, Forall (fun c : ncol K => n_gen c = 0%nat) rays -> (1 <= limit' <= limit)%Z ->
  n_trace K fuel table limit rays = Finished rows ->
  n_trace K fuel table limit' rays = Finished (filter (fun w => Z.ltb (Z.of_nat (nr_gen w)) limit') rows).
Proof. exact trace_cut. Qed.
Print Assumptions C93_smaller_limits_cut_whatever_the_rounding.

(** Other intensities change no other column. *)
Theorem C93_intensity_has_no_influence_whatever_the_rounding :
  forall K fuel table limit rays rays', Forall2 alike_rays rays rays' -> alike (n_trace K fuel table limit rays) (n_trace K fuel table limit rays').
Proof. exact intensity_irrelevant. Qed.
Print Assumptions C93_intensity_has_no_influence_whatever_the_rounding.

(** If the arithmetic treats every ray of an array by itself, the rows of each ray are those of
    tracing it alone. *)
Theorem C93_each_ray_as_if_alone :
  forall K O, ray_by_ray K O -> forall fuel table limit rays rows, n_trace K fuel table limit rays = Finished rows ->
  forall i c, nth_error rays i = Some c -> path K O table limit 0 (set_id K i c) (of_ray i rows).
Proof. exact traced_alone. Qed.
Print Assumptions C93_each_ray_as_if_alone.

(** A row that ends on an absorber is the last of its ray. *)
Theorem C93_absorbed_rays_recorded_once :
  forall K O, ray_by_ray K O -> forall fuel table limit rays rows, n_trace K fuel table limit rays = Finished rows ->
  NoDup (map fst table) -> forall z s f, In (z, s) table -> o_trace K O s = Some f ->
  (forall b wl n, exists b0, fst (f (b, wl, n)) = k_stop K b0) -> (forall b, o_absorbed K O (o_offset K O (k_stop K b)) = true) ->
  forall i c, nth_error rays i = Some c -> forall j w, nth_error (of_ray i rows) j = Some w -> nr_surf w = z -> nth_error (of_ray i rows) (S j) = None.
Proof. exact absorbed_last. Qed.
Print Assumptions C93_absorbed_rays_recorded_once.

(** The tracer of Tracer.v is the case of exact arithmetic, which treats every ray by itself. *)
Theorem C93_exact_arithmetic_is_a_case :
  forall asort h gen fuel t t', trace asort h gen fuel t = TOk t' ->
  exists comps lut, collect (map (shape_of h) (t_comps t)) = Some comps /\ collect (map (entry_of h) (t_lut t)) = Some lut /\
  ray_by_ray (exact asort comps) (exact_one asort comps) /\
  n_trace (exact asort comps) fuel lut (t_limit t) (map (up asort comps) (source_rays gen t)) =
  Finished (map (up_row asort comps) (f_rows (get_results t'))).
Proof. exact exact_is_a_case. Qed.
Print Assumptions C93_exact_arithmetic_is_a_case.

(** A ray that goes to a mirror and comes back, in exact arithmetic *)
Example C93_two_generations : forall asort, exists comps lut rays rows,
  ray_by_ray (exact asort comps) (exact_one asort comps) /\
  Forall (fun c : ncol (exact asort comps) => n_gen c = 0%nat) rays /\
  n_trace (exact asort comps) 10 lut 10 rays = Finished rows /\
  of_ray 0 rows = map (up_row asort comps) [out_row 1; back_row 1].
Proof. exact two_generations. Qed.
(** A coarse arithmetic on integers: the rays run to and fro on a line between a mirror at 0 and an
    absorber at 8; the mirror turns them, and every step forward is rounded to even. *)
Example C93_coarse_arithmetic :
  ray_by_ray coarse coarse_one /\
  exists rows, n_trace coarse 10 coarse_table 10 coarse_rays = Finished rows /\ map nr_gen (of_ray 0 rows) = [0; 1]%nat /\
  map nr_surf (of_ray 0 rows) = [5; 6]%Z /\ map nr_gen (of_ray 1 rows) = [0]%nat /\ of_ray 2 rows = [].
Proof. exact coarse_case. Qed.
