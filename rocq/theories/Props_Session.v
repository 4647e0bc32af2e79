(** * Property C105: a session with tracers, shared lists and result frames *)
From Coq Require Import Reals List Bool ZArith.
Import ListNotations.
From Verif Require Import XR Arr Lin Prim Csg Surf World Tracer TraceExamples Session SpecSession SessionFacts SessionProps SessionExamples.
Open Scope R_scope.

(** ** C105 *)
(** A frame that was handed out keeps its rows, whatever the program does afterwards: trace
    and reset start new frames.  Only calculate_source_ids changes a frame, and only one
    that is the current result of some tracer. *)
Theorem C105_results_are_snapshots :
  forall asort gen fuel pre cs s s' f fr,
  run_stmts asort gen fuel pre start = Some s -> run_stmts asort gen fuel cs s = Some s' -> frame_holds s f = Some fr ->
  exists fr', frame_holds s' f = Some fr' /\ f_rows fr' = f_rows fr /\
    (Forall (fun c => ~ adds_ids c) cs \/ (forall k, results_object s k <> Some f) -> fr' = fr).
Proof. exact frames_kept. Qed.
Print Assumptions C105_results_are_snapshots.

(** The settings of a tracer are what was set last, and its results are those of its last
    trace or reset: no other statement, in particular none that concerns another tracer,
    changes them. *)
Theorem C105_settings_last :
  forall asort gen fuel pre cs s s' k,
  run_stmts asort gen fuel pre start = Some s -> run_stmts asort gen fuel cs s = Some s' -> nth_error (s_tracers s) k <> None ->
  (Forall (fun c => ~ sets_rays k c) cs -> rays_per_source s' k = rays_per_source s k) /\
  (Forall (fun c => ~ sets_limit k c) cs -> generation_limit s' k = generation_limit s k) /\
  (Forall (fun c => ~ renews_results k c) cs -> results_object s' k = results_object s k).
Proof. exact settings_last. Qed.
Print Assumptions C105_settings_last.
Theorem C105_settings_are_read_back :
  forall asort gen fuel s s',
  (forall k n, run_stmt asort gen fuel (SRaysPerSource k n) s = SOk s' -> rays_per_source s' k = Some n) /\
  (forall k l, run_stmt asort gen fuel (SLimit k l) s = SOk s' -> generation_limit s' k = Some l) /\
  (forall a b n l, run_stmt asort gen fuel (STracer a b n l) s = SOk s' -> let k := length (s_tracers s) in
     rays_per_source s' k = Some n /\ generation_limit s' k = Some l /\ shows s' k empty_frame).
Proof.
  intros asort gen fuel s s'. split; [intros k n; exact (set_rays_reads asort gen fuel s k n s')|].
  split; [intros k l; exact (set_limit_reads asort gen fuel s k l s')|intros a b n l; exact (made_with asort gen fuel s a b n l s')].
Qed.
Print Assumptions C105_settings_are_read_back.
(** The same for the tracer of Tracer.v. *)
Theorem C105_value_settings :
  forall t n l, get_rays_per_source (set_rays_per_source n t) = n /\ get_generation_limit (set_generation_limit l t) = l /\
  get_rays_per_source (set_generation_limit l t) = get_rays_per_source t /\
  get_generation_limit (set_rays_per_source n t) = get_generation_limit t /\
  forall h ss cs, (forall t0, new_tracer h ss cs n l = Some t0 -> get_rays_per_source t0 = n /\ get_generation_limit t0 = l).
Proof.
  intros t n l. repeat (split; [reflexivity|]). intros h ss cs t0 H. unfold new_tracer in H.
  destruct (collect (map (lut_of h) cs)); [|discriminate]. injection H as <-. auto.
Qed.
Print Assumptions C105_value_settings.

(** A tracer given lists looks at what they hold when it traces: the trace is that of
    Tracer.v for the present contents, with the surface table of the components the list
    held when the tracer was made.  It changes neither the lists nor the scene. *)
Theorem C105_lists_are_shared :
  forall asort gen fuel pre s i j xs0 ys0 n l s1 cs s2 xs ys,
  run_stmts asort gen fuel pre start = Some s -> holds_list s i xs0 -> holds_list s j ys0 ->
  run_stmt asort gen fuel (STracer (Many i) (Many j) n l) s = SOk s1 ->
  let k := length (s_tracers s) in
  run_stmts asort gen fuel cs s1 = Some s2 -> Forall (fun c => ~ loads k c) cs -> holds_list s2 i xs -> holds_list s2 j ys ->
  exists t t0, tracer_is s2 k xs ys t /\ new_tracer (s_heap s) xs0 ys0 n l = Some t0 /\ t_lut t = t_lut t0.
Proof. exact shared. Qed.
Print Assumptions C105_lists_are_shared.
Theorem C105_tracing_lists :
  forall asort gen fuel pre s k xs ys t,
  run_stmts asort gen fuel pre start = Some s -> tracer_is s k xs ys t ->
  match trace asort (s_heap s) (gen (s_clock s) (s_heap s)) fuel t with
  | TOk t' => exists s', run_stmt asort gen fuel (STrace k) s = SOk s' /\ tracer_is s' k xs ys t' /\ shows s' k (get_results t') /\
      s_heap s' = s_heap s /\ st_iters (s_store s') = st_iters (s_store s)
  | TRaise e t' => exists s', run_stmt asort gen fuel (STrace k) s = SRaise e s' /\ tracer_is s' k xs ys t' /\ shows s' k (get_results t') /\
      s_heap s' = s_heap s /\ st_iters (s_store s') = st_iters (s_store s)
  | _ => run_stmt asort gen fuel (STrace k) s = SEndless
  end.
Proof. exact trace_lists. Qed.
Print Assumptions C105_tracing_lists.
(** The other methods do to the frame, the settings and the components what those of
    Tracer.v do. *)
Theorem C105_methods :
  forall asort gen fuel s k xs ys t, tracer_is s k xs ys t ->
  (exists s', run_stmt asort gen fuel (SIds k) s = SOk s' /\ tracer_is s' k xs ys (calculate_source_ids t)) /\
  (exists s', run_stmt asort gen fuel (SReset k) s = SOk s' /\ tracer_is s' k xs ys (reset t)) /\
  (forall n, exists s', run_stmt asort gen fuel (SRaysPerSource k n) s = SOk s' /\ tracer_is s' k xs ys (set_rays_per_source n t)) /\
  (forall l, exists s', run_stmt asort gen fuel (SLimit k l) s = SOk s' /\ tracer_is s' k xs ys (set_generation_limit l t)) /\
  (forall i zs, holds_list s i zs -> exists s', run_stmt asort gen fuel (SLoad k (Many i)) s = SOk s' /\ tracer_is s' k xs zs (load_components zs t)).
Proof. exact methods_like. Qed.
Print Assumptions C105_methods.
Example C105_hypotheses : forall asort, exists s t' s', run_stmts asort (lamp 1) 9 (bench_session with_lists) start = Some s /\
  run_stmt asort (lamp 1) 9 (STrace 0) s = SOk s' /\ tracer_is s' 0 [9%nat] [0; 2]%nat t' /\ shows s' 0 (get_results t') /\
  f_rows (get_results t') = [out_row 1; back_row 1].
Proof. exact lists_case. Qed.

(** An iterator of components is used up when the tracer is made: no trace, however much
    later, has a row, until components are loaded. *)
Theorem C105_iterators_are_used_up :
  forall asort gen fuel pre s i src n l s1 cs s2 s3,
  run_stmts asort gen fuel pre start = Some s -> is_iterator s i ->
  run_stmt asort gen fuel (STracer src (Many i) n l) s = SOk s1 ->
  let k := length (s_tracers s) in
  run_stmts asort gen fuel cs s1 = Some s2 -> Forall (fun c => ~ loads k c) cs ->
  run_stmt asort gen fuel (STrace k) s2 = SOk s3 -> shows s3 k empty_frame.
Proof. exact iterator_lost. Qed.
Print Assumptions C105_iterators_are_used_up.
(** Though a tracer takes "an iterable of components": the bench above, its two components
    from a generator instead of a list, shows nothing. *)
Theorem C105_any_iterable_refuted :
  forall asort, exists s s', run_stmts asort (lamp 1) 9 (bench_session with_iterator) start = Some s /\
  run_stmt asort (lamp 1) 9 (STrace 0) s = SOk s' /\ shows s' 0 empty_frame.
Proof. exact iterator_case. Qed.
Print Assumptions C105_any_iterable_refuted.
(** Loaded later, the iterator serves the first generation of the next trace and no other:
    the frame is that of a trace with generation limit 1. *)
Theorem C105_loaded_iterators_serve_one_generation :
  forall asort gen n pre s k i xs ys p s1 t1,
  run_stmts asort gen (6 + n) pre start = Some s ->
  nth_error (s_tracers s) k = Some p -> holds_list s (p_sources p) xs -> nth_error (st_iters (s_store s)) i = Some (Iterator ys) ->
  run_stmt asort gen (6 + n) (SLoad k (Many i)) s = SOk s1 ->
  trace asort (s_heap s) (gen (s_clock s) (s_heap s)) (6 + n)
    (Tracer empty_frame (p_state p) (p_gen p) (p_complete p) xs ys (p_n p) 1 (p_rays p) (p_hits p) (p_lut p)) = TOk t1 ->
  exists s2, run_stmt asort gen (6 + n) (STrace k) s1 = SOk s2 /\ shows s2 k (get_results t1).
Proof. exact loaded_iterator. Qed.
Print Assumptions C105_loaded_iterators_serve_one_generation.
Example C105_loaded_iterator : forall asort, exists s s' f, run_stmts asort (lamp 1) 9 (bench_session then_loaded) start = Some s /\
  run_stmt asort (lamp 1) 9 (STrace 0) s = SOk s' /\ shows s' 0 f /\ f_rows f = [out_row 1].
Proof. exact loaded_case. Qed.
(** An iterator of sources serves one trace; the next one raises. *)
Theorem C105_iterators_of_sources_serve_one_trace :
  forall asort gen fuel pre s k p s1,
  run_stmts asort gen fuel pre start = Some s -> nth_error (s_tracers s) k = Some p -> is_iterator s (p_sources p) ->
  run_stmt asort gen fuel (STrace k) s = SOk s1 -> exists s2, run_stmt asort gen fuel (STrace k) s1 = SRaise ValueError s2.
Proof. exact sources_used_up. Qed.
Print Assumptions C105_iterators_of_sources_serve_one_trace.
Example C105_iterator_of_sources : forall asort, exists s p s1 f, run_stmts asort (lamp 1) 9 (bench_session with_lamps) start = Some s /\
  nth_error (s_tracers s) 0 = Some p /\ is_iterator s (p_sources p) /\
  run_stmt asort (lamp 1) 9 (STrace 0) s = SOk s1 /\ shows s1 0 f /\ f_rows f = [out_row 1; back_row 1].
Proof. exact lamps_case. Qed.
