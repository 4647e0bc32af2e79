(** * Property C124: plates with any number of holes and any outline *)
From Coq Require Import Reals List ZArith Lra.
Import ListNotations.
From Verif Require Import XR Arr Lin Prim Surf SpecGeom SpecTree CsgProps Tracer SpecStop SpecSheet StopFacts SheetFacts3.
Open Scope R_scope.

(** A plate of any material, placed anywhere, from which any number of solids was subtracted and
    which was intersected with any number of solids, is hit where the ray crosses it, if just
    before it is outside every solid that was subtracted and inside every solid the plate was
    trimmed to.  Missing, here and below: sorts that may exchange equal numbers, for which it is
    false (see [C123_ties_refuted]). *)
Theorem C124_plates_are_hit_where_they_are_left_partial : forall asort f w l drilled trims s c, argsort_ok asort -> keeps_ties asort ->
  s_prim f = PPlane w l -> cut_from f drilled trims s -> tree_ok s -> boxes_current s -> boxes_fit s ->
  world_ray (c_ray c) -> good_ray s (c_ray c) -> clear_dir (c_ray c) ->
  forall q, 0 < q -> on_plate f w l (c_ray c) q ->
    Forall (fun h => just_before (fun u => ~ inside h (ray_at (c_ray c) u)) q) drilled ->
    Forall (fun h => just_before (fun u => inside h (ray_at (c_ray c) u)) q) trims ->
    propagate asort [s] c = (Fin q, s_id f).
Proof. intros. eapply plate_stops; eauto. Qed.
Print Assumptions C124_plates_are_hit_where_they_are_left_partial.

(** If the ray is inside a solid that was subtracted, or outside one the plate was trimmed to,
    it is let by. *)
Theorem C124_plates_let_by_where_they_are_cut_partial : forall asort f w l drilled trims s c, argsort_ok asort -> keeps_ties asort ->
  s_prim f = PPlane w l -> cut_from f drilled trims s -> tree_ok s -> boxes_current s -> boxes_fit s ->
  world_ray (c_ray c) -> good_ray s (c_ray c) ->
  forall q, placed f (ray_at (c_ray c) q) ->
    Exists (fun h => just_before (fun u => inside h (ray_at (c_ray c) u)) q) drilled \/
    Exists (fun h => just_before (fun u => ~ inside h (ray_at (c_ray c) u)) q) trims -> let_by asort s c.
Proof. intros. eapply hole_passes; eauto. Qed.
Print Assumptions C124_plates_let_by_where_they_are_cut_partial.

(** One of the two is the case for every ray and every plate. *)
Theorem C124_left_or_cut : forall asort f drilled trims s c, argsort_ok asort ->
  cut_from f drilled trims s -> tree_ok s -> boxes_current s -> boxes_fit s -> world_ray (c_ray c) -> good_ray s (c_ray c) ->
  forall q,
    (Forall (fun h => just_before (fun u => ~ inside h (ray_at (c_ray c) u)) q) drilled /\
     Forall (fun h => just_before (fun u => inside h (ray_at (c_ray c) u)) q) trims) \/
    Exists (fun h => just_before (fun u => inside h (ray_at (c_ray c) u)) q) drilled \/
    Exists (fun h => just_before (fun u => ~ inside h (ray_at (c_ray c) u)) q) trims.
Proof. intros. eapply hole_or_not; eauto. Qed.
Print Assumptions C124_left_or_cut.

(** Whatever the ray, it is let by or hits the plate where it is left; the solids that cut it are
    never hit. *)
Theorem C124_only_the_plate_is_hit_partial : forall asort f w l drilled trims s c, argsort_ok asort -> keeps_ties asort ->
  s_prim f = PPlane w l -> cut_from f drilled trims s -> tree_ok s -> boxes_current s -> boxes_fit s ->
  world_ray (c_ray c) -> good_ray s (c_ray c) ->
  let_by asort s c \/ exists q, 0 < q /\ propagate asort [s] c = (Fin q, s_id f) /\ placed f (ray_at (c_ray c) q) /\
    Forall (fun h => just_before (fun u => ~ inside h (ray_at (c_ray c) u)) q) drilled /\
    Forall (fun h => just_before (fun u => inside h (ray_at (c_ray c) u)) q) trims.
Proof. intros. eapply only_the_plate; eauto. Qed.
Print Assumptions C124_only_the_plate_is_hit_partial.

(** What counts is the side the ray comes from: a pocket that starts flush with the plate opens it
    for the rays that come through the pocket, and not for those that come from behind. *)
Theorem C124_openings_are_the_same_from_both_sides_refuted : forall asort, argsort_ok asort -> keeps_ties asort ->
  exists s, cut_from screen [pocket] [] s /\ tree_ok s /\ boxes_current s /\ boxes_fit s /\
    forall c c', c_ray c = Ray (V4 0 0 (-3) 1) (V4 0 0 1 0) -> c_ray c' = Ray (V4 0 0 3 1) (V4 0 0 (-1) 0) ->
      propagate asort [s] c = (Fin 3, s_id screen) /\ let_by asort s c'.
Proof.
  intros asort AS KT. exists (flush asort). destruct (flush_ok asort AS) as (C & T & B & F). split; [exact C|]. split; [exact T|]. split; [exact B|]. split; [exact F|]. exact (one_way asort AS KT).
Qed.
Print Assumptions C124_openings_are_the_same_from_both_sides_refuted.

(** A screen of 4 by 4 with two slits, trimmed to a disc of radius 3/2: the ray between the slits,
    the ray through the right one and the ray past the rim meet the hypotheses. *)
Example C124_hypotheses : forall c c' c'', c_ray c = shot 0 -> c_ray c' = shot (3 / 4) -> c_ray c'' = shot (7 / 4) ->
  let asort := argsort_stable xsle PInf in
  let holes := [slit 2 (1/2) 1; slit 1 (-1) (-1/2)] in
  argsort_ok asort /\ keeps_ties asort /\ cut_from screen holes [outline] (slits asort) /\ tree_ok (slits asort) /\ boxes_current (slits asort) /\ boxes_fit (slits asort) /\
  (world_ray (c_ray c) /\ good_ray (slits asort) (c_ray c) /\ clear_dir (c_ray c) /\ on_plate screen 4 4 (c_ray c) 3 /\
    Forall (fun h => just_before (fun u => ~ inside h (ray_at (c_ray c) u)) 3) holes /\ Forall (fun h => just_before (fun u => inside h (ray_at (c_ray c) u)) 3) [outline]) /\
  (world_ray (c_ray c') /\ good_ray (slits asort) (c_ray c') /\ placed screen (ray_at (c_ray c') 3) /\
    Exists (fun h => just_before (fun u => inside h (ray_at (c_ray c') u)) 3) holes) /\
  (world_ray (c_ray c'') /\ good_ray (slits asort) (c_ray c'') /\ placed screen (ray_at (c_ray c'') 3) /\
    Exists (fun h => just_before (fun u => ~ inside h (ray_at (c_ray c'') u)) 3) [outline]).
Proof.
  intros c c' c'' E E' E''. cbv zeta. rewrite E, E', E''. pose proof argsort_ok_stable as AS. destruct (slits_ok _ AS) as (C & T & B & F).
  split; [exact AS|]. split; [exact stable_keeps_ties|]. split; [exact C|]. split; [exact T|]. split; [exact B|]. split; [exact F|].
  destruct (shot_ok (argsort_stable xsle PInf) 0) as (W & D & G), (shot_ok (argsort_stable xsle PInf) (3 / 4)) as (W' & _ & G'), (shot_ok (argsort_stable xsle PInf) (7 / 4)) as (W'' & _ & G'').
  split; [|split].
  - split; [exact W|]. split; [exact G|]. split; [exact D|]. split; [apply shot_plate; rewrite Rabs_R0; lra|].
    split; repeat constructor; exists 1; (split; [lra|]); intros u U; [rewrite in_slit by lra; lra|rewrite in_slit by lra; lra|apply in_outline; lra].
  - split; [exact W'|]. split; [exact G'|]. split.
    + eapply SheetFacts2.placed_plate; [reflexivity|exact W'|exact (proj1 (proj1 (proj1 T)))|]. apply shot_plate. rewrite Rabs_right; lra.
    + left. exists (1 / 2). split; [lra|]. intros u U. apply in_slit; lra.
  - split; [exact W''|]. split; [exact G''|]. split.
    + eapply SheetFacts2.placed_plate; [reflexivity|exact W''|exact (proj1 (proj1 (proj1 T)))|]. apply shot_plate. rewrite Rabs_right; lra.
    + left. exists (1 / 2). split; [lra|]. intros u U. rewrite in_outline. lra.
Qed.
(** The first is stopped and the others are let by. *)
Example C124_double_slit : forall c c' c'', c_ray c = shot 0 -> c_ray c' = shot (3 / 4) -> c_ray c'' = shot (7 / 4) ->
  let asort := argsort_stable xsle PInf in
  propagate asort [slits asort] c = (Fin 3, 0%Z) /\ let_by asort (slits asort) c' /\ let_by asort (slits asort) c''.
Proof.
  intros c c' c'' E E' E''. destruct (C124_hypotheses c c' c'' E E' E'') as (AS & KT & C & T & B & F & (W & G & D & P & O & Q) & (W' & G' & P' & O') & W'' & G'' & P'' & O''). split; [|split].
  - exact (C124_plates_are_hit_where_they_are_left_partial _ screen 4 4 _ _ _ c AS KT eq_refl C T B F W G D 3 ltac:(lra) P O Q).
  - exact (C124_plates_let_by_where_they_are_cut_partial _ screen 4 4 _ _ _ c' AS KT eq_refl C T B F W' G' 3 P' (or_introl O')).
  - exact (C124_plates_let_by_where_they_are_cut_partial _ screen 4 4 _ _ _ c'' AS KT eq_refl C T B F W'' G'' 3 P'' (or_intror O'')).
Qed.
