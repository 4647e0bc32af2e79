(** * Props_Motion: moving the whole bench *)
From Coq Require Import Reals List Bool ZArith Lia Lra.
Import ListNotations.
From Verif Require Import XR Arr Lin LinFacts Prim Csg CsgProps Surf World SpecWorld WorldFacts3 WorldExamples Tracer SpecTrace TraceExamples Sources SpecSources
  SpecMotion MotionFacts4 MotionFacts5 MotionProps MotionExamples.
Open Scope R_scope.

(** C83.  [m] is any rotation, reflection or translation of space or a combination; [u] is
    a tracer for the moved bench: the same surfaces, each placed [m] further, the rays of
    its sources those of [t] carried by [m].  Then [u] runs whenever [t] does, and its
    frame is that of [t] with the positions and tilts moved and nothing else changed. *)
Theorem C83_moving_the_bench_moves_the_rows : forall asort, argsort_ok asort -> forall m, isometry m ->
  forall gen h t comps gen' h' u comps' fuel t' fuel',
  proper gen h t comps -> scene h' u comps' -> t_limit u = t_limit t ->
  source_rays gen' u = map (carry m) (source_rays gen t) -> t_sources u <> [] ->
  Forall2 (moved_shape m) comps comps' ->
  trace asort h gen fuel t = TOk t' -> (2 * Z.to_nat (t_limit t) + 2 <= fuel')%nat ->
  exists u', trace asort h' gen' fuel' u = TOk u' /\
    f_rows (get_results u') = map (move_row m) (f_rows (get_results t')).
Proof. exact bench_moved. Qed.
Print Assumptions C83_moving_the_bench_moves_the_rows.

(** The rays a source emits after it is moved are the rays it emitted before, carried along
    (for the Lamp: for the same numbers drawn) *)
Theorem C83_moved_sources_emit_moved_rays : forall rnd s wl W p n rays m, isometry m -> affine W ->
  emits rnd s wl W p n rays -> emits rnd s wl (mmul m W) p n (map (carry m) rays).
Proof. exact source_moved. Qed.
Print Assumptions C83_moved_sources_emit_moved_rays.

(** The same about programs.  Every component of the tracer is a surface, and the program
    moves every one of them by the same rotation or translation [mo]. *)
Theorem C83_moving_every_surface : forall asort, argsort_ok asort -> forall cs h gen t comps mo m h' gen' fuel t' fuel',
  run_prog asort cs empty_heap = Ok h -> proper gen h t comps ->
  (forall l, In l (t_comps t) -> exists o p k, get h l = Some o /\ o_kind o = KSurf p k) -> NoDup (t_comps t) ->
  rigid mo -> motion_matrix mo = Some m ->
  run_prog asort (map (fun l => CMotion l mo) (t_comps t)) h = Ok h' ->
  source_rays gen' t = map (carry m) (source_rays gen t) ->
  trace asort h gen fuel t = TOk t' -> (2 * Z.to_nat (t_limit t) + 2 <= fuel')%nat ->
  exists u', trace asort h' gen' fuel' t = TOk u' /\
    f_rows (get_results u') = map (move_row m) (f_rows (get_results t')).
Proof. exact surfaces_moved. Qed.
Print Assumptions C83_moving_every_surface.
(** a mirror and an absorber turned by 30 degrees; the frame holds two rows *)
Example C83_turned_bench : forall asort, argsort_ok asort -> exists h t t' h' m,
  run_prog asort bench_calls empty_heap = Ok h /\ proper (emit 1 1) h t (map bench_shape [0; 2]%nat) /\ t_comps t = [0; 2]%nat /\
  (forall l, In l (t_comps t) -> exists o p k, get h l = Some o /\ o_kind o = KSurf p k) /\ NoDup (t_comps t) /\
  motion_matrix (RotY 30 Deg) = Some m /\ run_prog asort (map (fun l => CMotion l (RotY 30 Deg)) (t_comps t)) h = Ok h' /\
  trace asort h (emit 1 1) 9 t = TOk t' /\ f_rows (get_results t') = [out_row 1; back_row 1].
Proof. exact turned_bench. Qed.

(** Components that are CSG trees.  Missing: rotations (the boxes of CSG nodes are
    aligned with the axes and are not carried along by a rotation), and trees with a CSG
    object as the right operand of a union or an intersection, for which the claim is
    false (below). *)
Theorem C83_translating_every_component_partial : forall asort, argsort_ok asort -> by_comparison asort ->
  forall cs h gen t comps x y z h' gen' fuel t' fuel',
  run_prog asort cs empty_heap = Ok h -> proper gen h t comps ->
  NoDup (flat_map (parts h) (t_comps t)) -> (forall l, In l (t_comps t) -> right_simple h l) ->
  (forall p, In p (flat_map (parts h) (t_comps t)) -> box_current asort h p) ->
  run_prog asort (map (fun l => CMotion l (Move x y z)) (t_comps t)) h = Ok h' ->
  source_rays gen' t = map (carry (shift x y z)) (source_rays gen t) ->
  trace asort h gen fuel t = TOk t' -> (2 * Z.to_nat (t_limit t) + 2 <= fuel')%nat ->
  exists u', trace asort h' gen' fuel' t = TOk u' /\
    f_rows (get_results u') = map (move_row (shift x y z)) (f_rows (get_results t')).
Proof. exact components_translated. Qed.
Print Assumptions C83_translating_every_component_partial.
(** the union of the union of two cubes and a third, with a ray that hits it *)
Example C83_translated_union : forall asort, argsort_ok asort -> by_comparison asort -> exists h t h' t',
  run_prog asort cubes3' empty_heap = Ok h /\ (exists comps, proper one_ray h t comps) /\ t_comps t = [4%nat] /\
  NoDup (flat_map (parts h) (t_comps t)) /\ (forall l, In l (t_comps t) -> right_simple h l) /\
  (forall p, In p (flat_map (parts h) (t_comps t)) -> box_current asort h p) /\
  run_prog asort (map (fun l => CMotion l (Move 10 0 0)) (t_comps t)) h = Ok h' /\
  trace asort h one_ray 22 t = TOk t' /\ f_rows (get_results t') <> [].
Proof. exact kept_union. Qed.
(** a stable sort is an argsort and decides by comparison only *)
Example C83_sort : argsort_ok (argsort_stable xsle PInf) /\ by_comparison (argsort_stable xsle PInf).
Proof. split; [exact argsort_ok_stable|exact stable_by_comparison]. Qed.

(** Refuted in general: the union of a cube with the union of two others is hit before
    the bench is moved by 10 along x, and is lost afterwards. *)
Theorem C83_moving_a_union_refuted : forall asort, argsort_ok asort -> exists h t h' t' u',
  run_prog asort cubes3 empty_heap = Ok h /\ new_tracer h [9%nat] [4%nat] 1 10 = Some t /\ NoDup (flat_map (parts h) (t_comps t)) /\
  (forall p, In p (flat_map (parts h) (t_comps t)) -> box_current asort h p) /\
  (exists comps, proper one_ray h t comps) /\
  run_prog asort (map (fun l => CMotion l (Move 10 0 0)) (t_comps t)) h = Ok h' /\
  trace asort h one_ray 22 t = TOk t' /\ trace asort h' (fun s n => map (carry (shift 10 0 0)) (one_ray s n)) 22 t = TOk u' /\
  f_rows (get_results t') <> [] /\ f_rows (get_results u') = [].
Proof. exact lost_union. Qed.
Print Assumptions C83_moving_a_union_refuted.
