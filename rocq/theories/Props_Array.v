(** * Props_Array: the array code of the tracer, the materials and the sources *)
From Coq Require Import Reals List Bool ZArith Arith Lia Lra.
Import ListNotations.
From Verif Require Import XR XRFacts Arr Lin LinFacts Prim Csg CsgProps Surf World Tracer SpecTrace Sources SpecSources SourceProps
  Batch BatchFacts BatchFacts2 BatchOps BatchOpsFacts RaySet SpecRaySet BatchTracer BatchTraceFacts BatchSources SpecArray BatchTraceFacts3 ArrayProps Ops
  TraceProps TraceExamples.
Open Scope R_scope.

(** C13: the operations between two intersections, column by column: surface normals (an
    undefined normal is a column of nan), reflection, refraction, and the materials *)
Theorem C13_normals_ray_by_ray : forall s points j v, column points j = vec_list v ->
  column (batch_world_normals s points) j =
  match world_normal s v with Some n => vec_list n | None => [NaN; NaN; NaN; NaN] end.
Proof. exact world_normals_column. Qed.
Print Assumptions C13_normals_ray_by_ray.
Theorem C13_reflect_ray_by_ray : forall vs ns j v n, column vs j = vec_list v -> column ns j = vec_list n ->
  column (batch_reflect vs ns) j = vec_list (reflect v n).
Proof. exact reflect_column. Qed.
Print Assumptions C13_reflect_ray_by_ray.
Theorem C13_refract_ray_by_ray : forall vs ns n1 n2 ng j v n i1 i2 d m,
  column vs j = vec_list v -> column ns j = vec_list n -> n1 j = Fin i1 -> n2 j = Fin i2 ->
  refract v n i1 i2 ng = Some (d, m) ->
  column (fst (batch_refract vs ns n1 n2 ng)) j = vec_list d /\ snd (batch_refract vs ns n1 n2 ng) j = Fin m.
Proof. exact refract_column. Qed.
Print Assumptions C13_refract_ray_by_ray.
Theorem C13_materials_ray_by_ray : forall s rs, is_rayset rs -> s_mat s <> Untraceable ->
  exists out, batch_material s (amap Fin rs) = Some out /\ width out = width rs /\
    forall cs, holds rs cs -> forall j c c', nth_error cs j = Some c -> material_trace s c = Some c' ->
      column out j = floats c'.
Proof.
  intros s rs L U. destruct (material_column s (amap Fin rs)) as (out & E & L' & W & K); [|exact U|].
  - unfold rows13, amap. cbn [rows]. rewrite map_length. exact L.
  - exists out. split; [exact E|]. split; [exact W|]. intros cs H j c c' N M.
    apply (K j c c'); auto.
    + destruct H as (_ & Wd & _). cbn [amap width]. rewrite Wd. apply nth_error_Some. congruence.
    + rewrite column_amap, (holds_column rs cs H j c N). reflexivity.
Qed.
Print Assumptions C13_materials_ray_by_ray.
Example C13_materials_hypotheses : exists rs c c', new_set 3 = Some rs /\ is_rayset rs /\ holds rs (new_rayset 3) /\
  nth_error (new_rayset 3) 1 = Some c /\ s_mat (sheet 0 1 Mirror) <> Untraceable /\
  material_trace (sheet 0 1 Mirror) c = Some c'.
Proof.
  destruct (RaySetProps.holds_new 3) as (rs & E & H). pose proof H as (L & _). do 3 eexists.
  split; [exact E|]. split; [exact L|]. split; [exact H|]. split; [reflexivity|].
  split; [discriminate|]. unfold material_trace. cbn [s_mat sheet]. rewrite sheet_normal. reflexivity.
Qed.

(** C82: the tracer's array code gives, row for row and number for number, the frame of the
    ray by ray description used in all the other theorems, and raises when that raises *)
Theorem C82_array_tracer_is_the_ray_by_ray_tracer :
  forall asort, argsort_ok asort -> forall h arrays rays ss ls n limit b t,
  new_btracer h ss ls n limit = Some b -> new_tracer h ss ls n limit = Some t ->
  (forall s, In s ss -> holds (arrays s n) (rays s n)) ->
  forall fuel,
  (forall t', trace asort h rays fuel t = TOk t' -> exists b', b_trace asort h arrays fuel b = BOk b' /\
     b_frame b' = map row_numbers (f_rows (get_results t')) /\ b_gen b' = t_gen t' /\ b_complete b' = t_complete t') /\
  (forall e t', trace asort h rays fuel t = TRaise e t' -> b_trace asort h arrays fuel b = BErr e) /\
  (trace asort h rays fuel t = TFuel -> b_trace asort h arrays fuel b = BFuel).
Proof. exact array_trace. Qed.
Print Assumptions C82_array_tracer_is_the_ray_by_ray_tracer.

(** C82: the array a source returns holds the rays of the source theorems, in order *)
Theorem C82_array_sources_are_the_ray_by_ray_sources : forall rnd s wl m p n rays, emits rnd s wl m p n rays ->
  exists rs, batch_generate rnd s wl m p n = Some rs /\ holds rs rays.
Proof.
  intros rnd s wl m p n rays E. apply generate_held. unfold emits in E. rewrite E. apply TraceFacts.collect_map_some.
Qed.
Print Assumptions C82_array_sources_are_the_ray_by_ray_sources.

(** C82: arrays from end to end.  In a scene without shared surfaces, built of well formed
    parts, lit by placed sources: the array tracer ends without exception, inf or nan, and its
    frame is the rows of the histories of the sources' rays *)
Theorem C82_frame_of_placed_sources :
  forall asort, argsort_ok asort -> forall rnd (src : loc -> placed) h ss ls n limit b t comps,
  new_btracer h ss ls n limit = Some b -> new_tracer h ss ls n limit = Some t ->
  (forall s, In s ss -> placed_ok rnd n (src s)) -> ss <> [] -> (1 <= limit)%Z ->
  scene h t comps ->
  (forall s, In s (flat_map surface_ids comps) -> part_ok (fun wl => exists x, In x ss /\ p_wl (src x) = wl) s) ->
  forall fuel, (2 * Z.to_nat limit + 2 <= fuel)%nat ->
  forall arrays, (forall s, In s ss -> placed_array rnd (src s) n = Some (arrays s n)) ->
  exists b' lists rows, b_trace asort h arrays fuel b = BOk b' /\ b_complete b' = true /\
    Forall2 (fun s rays => emits rnd (p_kind (src s)) (p_wl (src s)) (p_world (src s)) (p_draw (src s)) n rays) ss lists /\
    b_frame b' = map row_numbers rows /\
    forall i c, nth_error (concat lists) i = Some c ->
      history asort comps (flat_map surface_ids comps) limit 0 (with_id i c) (rows_with_id i rows).
Proof. exact end_to_end. Qed.
Print Assumptions C82_frame_of_placed_sources.

(** the bench of TraceExamples lit by five rays of a line source aimed at it *)
Definition aim : mat := M4 (V4 0 0 1 0) (V4 0 1 0 0) (V4 (-1) 0 0 0) (V4 0 0 0 1).
Definition aimed_line : placed := Placed (LineOfRays 1) (1/2) aim 0.
Lemma aimed_line_ok : placed_ok (fun _ => 0) 5 aimed_line.
Proof.
  split; [reflexivity|]. split.
  - cbn [p_world aimed_line]. exists (mtrans aim). split; unfold aim; vring.
  - destruct (line_bundle (fun _ => 0) 1 (1/2) 0 5) as (rays & E & _). exists rays. exact E.
Qed.
Example C82_hypotheses : forall asort, argsort_ok asort -> exists h b t comps array,
  on_bench asort h /\
  new_btracer h [9%nat] [1; 2]%nat 5 4 = Some b /\ new_tracer h [9%nat] [1; 2]%nat 5 4 = Some t /\
  placed_ok (fun _ => 0) 5 aimed_line /\ [9%nat] <> [] /\ (1 <= 4)%Z /\ scene h t comps /\
  (forall s, In s (flat_map surface_ids comps) -> part_ok (fun wl => exists x, In x [9%nat] /\ p_wl aimed_line = wl) s) /\
  placed_array (fun _ => 0) aimed_line 5 = Some array /\ length comps = 2%nat /\ width array = 5%nat /\
  exists b', b_trace asort h (fun _ _ => array) 10 b = BOk b'.
Proof.
  intros asort AS. destruct (a_bench asort) as (h & B).
  assert (LS : Forall (fun l => (l < 4)%nat) [1; 2]%nat) by (repeat constructor).
  pose proof (bench_tracer asort h [9%nat] [1; 2]%nat 5 4 B LS) as T.
  destruct (new_both h [9%nat] [1; 2]%nat 5 4) as [(b & t & Eb & Et)|[_ X]]; [|congruence].
  destruct (placed_emits _ 5 aimed_line aimed_line_ok) as (_ & (array & EA & HA) & _).
  assert (P : proper (emit (-1) 1) h t (map bench_shape [1; 2]%nat)).
  { apply (bench_proper asort h (-1) 1 [1; 2]%nat [9%nat] 5 4 t B); auto; try lia.
    - repeat constructor; cbn; lia.
    - discriminate. }
  assert (PO : forall s, In s (flat_map surface_ids (map bench_shape [1; 2]%nat)) ->
                 part_ok (fun wl => exists x, In x [9%nat] /\ p_wl aimed_line = wl) s).
  { intros s I. apply in_flat_map in I. destruct I as (x & X & I). apply in_map_iff in X. destruct X as (l & <- & IL).
    apply (bench_at asort h l B); [|exact I]. rewrite Forall_forall in LS. auto. }
  exists h, b, t, (map bench_shape [1; 2]%nat), array.
  assert (W : width array = 5%nat).
  { destruct HA as (_ & W & _). rewrite W.
    destruct (placed_emits _ 5 aimed_line aimed_line_ok) as (E & _). unfold emits in E.
    apply (f_equal (@length _)) in E. rewrite map_length in E. rewrite <- E, SourceFacts.generate_eq, map_length.
    cbn [p_kind aimed_line p_wl p_draw]. rewrite SourceFacts.line_local, map_length, seq_length. reflexivity. }
  split; [exact B|]. split; [exact Eb|]. split; [exact Et|]. split; [exact aimed_line_ok|]. split; [discriminate|].
  split; [lia|]. split; [exact (proj1 P)|]. split; [exact PO|]. split; [exact EA|]. split; [reflexivity|]. split; [exact W|].
  assert (F10 : (2 * Z.to_nat 4 + 2 <= 10)%nat) by (cbn; lia).
  destruct (end_to_end asort AS (fun _ => 0) (fun _ => aimed_line) h [9%nat] [1; 2]%nat 5 4 b t (map bench_shape [1; 2]%nat)
    Eb Et (fun _ _ => aimed_line_ok) ltac:(discriminate) ltac:(lia) (proj1 P) PO 10%nat F10
    (fun (_ : loc) (_ : nat) => array) (fun _ _ => EA)) as (b' & _ & _ & E & _).
  exists b'. exact E.
Qed.
