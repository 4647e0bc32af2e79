(** * Properties C36, C40 and C41, exactly: surfaces listed several times or not at all *)
From Coq Require Import Reals List Bool ZArith Lia Lra.
Import ListNotations.
From Verif Require Import XR XRFacts Lin LinFacts Prim Csg CsgProps Surf World SpecWorld Tracer SpecTrace TraceFacts4 TraceFacts8 TraceExamples TraceProps
  SpecListed ListedFacts.
Open Scope R_scope.

(** A tracer is built on a scene, the scene is changed, other components may be loaded
    ([t] is the tracer that traces; only its constructor sets the table of surfaces).
    Every ray has the history in which a surface acts as often as it is listed in the
    components the tracer was built with: once, several times or never. *)
Theorem C41_every_trace_exactly :
  forall asort, argsort_ok asort ->
  forall cs cs' h0 h ss ls n lim t0 t known comps gen fuel t',
  run_prog asort cs empty_heap = Ok h0 -> new_tracer h0 ss ls n lim = Some t0 -> run_prog asort cs' h0 = Ok h ->
  t_lut t = t_lut t0 -> map (shape_of h) ls = map Some known -> map (shape_of h) (t_comps t) = map Some comps ->
  trace asort h gen fuel t = TOk t' ->
  forall i c, nth_error (source_rays gen t) i = Some c ->
  listed_history asort comps (flat_map surface_ids known) (t_limit t) 0 (with_id i c) (rows_with_id i (f_rows (get_results t'))).
Proof. exact every_history. Qed.
Print Assumptions C41_every_trace_exactly.

(** In particular a surface the tracer was not built with stops no ray: the row ends where
    it starts, and the ray goes on in the same direction and medium. *)
Theorem C40_unknown_surfaces_exactly :
  forall asort, argsort_ok asort ->
  forall cs cs' h0 h ss ls n lim t0 t known comps gen fuel t',
  run_prog asort cs empty_heap = Ok h0 -> new_tracer h0 ss ls n lim = Some t0 -> run_prog asort cs' h0 = Ok h ->
  t_lut t = t_lut t0 -> map (shape_of h) ls = map Some known -> map (shape_of h) (t_comps t) = map Some comps ->
  trace asort h gen fuel t = TOk t' ->
  forall i c rows, nth_error (source_rays gen t) i = Some c -> rows = rows_with_id i (f_rows (get_results t')) ->
  (forall w, In w rows -> listed (flat_map surface_ids known) (row_surf w) = O -> row_end w = row_start w) /\
  (forall j w w', nth_error rows j = Some w -> nth_error rows (S j) = Some w' ->
     listed (flat_map surface_ids known) (row_surf w) = O -> row_tilt w' = row_tilt w /\ row_idx w' = row_idx w).
Proof. intros. subst rows. eapply unlisted_surfaces; eauto. Qed.
Print Assumptions C40_unknown_surfaces_exactly.

(** A tracer built with a mirror, given an absorber instead; and a tracer built with the
    mirror twice. *)
Example C40_exactly_hypotheses : forall asort, exists h t t' u u',
  run_prog asort bench_calls empty_heap = Ok h /\ run_prog asort [] h = Ok h /\
  new_tracer h [9%nat] [0%nat] 1 1 = Some t /\ t_lut (load_components [2%nat] t) = t_lut t /\
  map (shape_of h) [0%nat] = map Some [bench_shape 0] /\ map (shape_of h) (t_comps (load_components [2%nat] t)) = map Some [bench_shape 2] /\
  trace asort h (emit (-1) 1) 5 (load_components [2%nat] t) = TOk t' /\ f_rows (get_results t') = [stale_row] /\
  listed (flat_map surface_ids [bench_shape 0]) (row_surf stale_row) = 0%nat /\
  new_tracer h [9%nat] [0; 0]%nat 1 1 = Some u /\ map (shape_of h) [0; 0]%nat = map Some [bench_shape 0; bench_shape 0] /\
  trace asort h (emit 1 1) 5 u = TOk u' /\ f_rows (get_results u') = [twice_row] /\
  listed (flat_map surface_ids [bench_shape 0; bench_shape 0]) (row_surf twice_row) = 2%nat.
Proof.
  intros asort. destruct (a_bench asort) as (h & B). destruct (a_run asort h [0%nat] 1 B ltac:(bench_list)) as (t & R).
  destruct (a_run asort h [2%nat] 1 B ltac:(bench_list)) as (v & R'). destruct (a_run asort h [0; 0]%nat 1 B ltac:(bench_list)) as (u & Q).
  destruct (stale_table asort h B 0 t v (proj2 R) (proj2 R')) as (t' & u0 & T & _ & F & _).
  destruct (mirror_twice asort h B 0 u (proj2 Q)) as (u' & U & G).
  destruct (bench_at asort h 0%nat B ltac:(lia)) as (S0 & _). destruct (bench_at asort h 2%nat B ltac:(lia)) as (S2 & _).
  exists h, t, t', u, u'. split; [apply R|]. split; [reflexivity|]. split; [apply R|]. split; [reflexivity|].
  split; [cbn [map]; rewrite S0; reflexivity|]. split; [cbn [map t_comps load_components]; rewrite S2; reflexivity|].
  split; [exact T|]. split; [exact F|]. split; [reflexivity|]. split; [apply Q|].
  split; [cbn [map]; rewrite S0; reflexivity|]. split; [exact U|]. split; [exact G|]. reflexivity.
Qed.
