(** * Props_Crossing: the property theorems about rays stopping at solids (C95) *)
From Coq Require Import Reals List Bool ZArith Lra Lia.
Import ListNotations.
From Verif Require Import XR XRFacts Arr ArrFacts Csg SpecCsg CsgProps Lin LinFacts Prim Csg Surf SpecGeom SpecTree TreeFacts TreeExamples
  World SpecWorld SpecOptics Tracer SpecTrace TraceProps SpecCrossing Crossing CrossingProps CrossingExamples.
Open Scope R_scope.

(** ** C95: a ray stops where it first enters or leaves a solid *)

(** The tracer's first hit is where the ray first enters or leaves a component, and names a surface it passes there *)
Theorem C95_first_hits_are_first_crossings_partial : forall asort, argsort_ok asort -> forall comps r q sid,
  world_ray r -> (forall s, In s comps -> visible r s) -> 0 < q -> separate comps r q ->
  (first_hit asort comps r q sid <->
   (forall s, In s comps -> undisturbed s r q) /\
   exists s f, In s comps /\ meets s r q /\ In f (surface_ids s) /\ In (Fin q) (surf_hits f r) /\ s_id f = sid).
Proof. intros asort AS. exact (first_crossing asort AS). Qed.
Print Assumptions C95_first_hits_are_first_crossings_partial.

(** It has none exactly if the ray never enters nor leaves a component *)
Theorem C95_rays_that_cross_nothing_are_dropped_partial : forall asort, argsort_ok asort -> forall comps r,
  world_ray r -> (forall s, In s comps -> visible r s) -> (forall q, separate comps r q) ->
  (no_hit asort comps r <-> forall s q, In s comps -> undisturbed s r q).
Proof. intros asort AS. exact (no_crossing asort AS). Qed.
Print Assumptions C95_rays_that_cross_nothing_are_dropped_partial.

Lemma unit_world_ray : forall p d, unit d -> vw d = 0 -> world_ray (Ray (here p) d).
Proof.
  intros p d U D. split; [reflexivity|]. split; [exact D|]. intros (X & Y & Z). cbn in X, Y, Z. unfold unit, vdot in U. rewrite X, Y, Z, D in U. lra.
Qed.
(** Every row of a trace ends where its ray first enters or leaves a component *)
Theorem C95_rows_end_at_the_first_crossing_partial : forall asort, argsort_ok asort -> forall gen h t comps fuel t',
  proper gen h t comps -> trace asort h gen fuel t = TOk t' ->
  forall w, In w (f_rows (get_results t')) ->
  let r := Ray (here (row_start w)) (row_tilt w) in
  (forall s, In s comps -> visible r s) -> (forall q, separate comps r q) ->
  exists q, 0 < q /\ row_end w = vadd (row_start w) (vscale q (row_tilt w)) /\
   (forall s, In s comps -> undisturbed s r q) /\
   exists s f, In s comps /\ meets s r q /\ In f (surface_ids s) /\ In (Fin q) (surf_hits f r) /\ s_id f = row_surf w.
Proof.
  intros asort AS gen h t comps fuel t' PR T w W r V SP. destruct (proper_legs asort AS _ _ _ _ _ _ PR T) as (L & _).
  destruct (L w W) as (U & D & q & Q & E & F). exists q. split; auto. split; auto.
  refine (proj1 (first_crossing asort AS comps r q (row_surf w) _ V Q (SP q)) F).
  apply unit_world_ray; auto.
Qed.
Print Assumptions C95_rows_end_at_the_first_crossing_partial.

(** A ray without a further row that was neither absorbed nor stopped by the limit would, deflected by the law of the
    surface it met, never enter nor leave a component again *)
Theorem C95_rays_end_in_the_open_partial : forall asort, argsort_ok asort -> forall gen h t comps fuel t',
  proper gen h t comps -> trace asort h gen fuel t = TOk t' ->
  forall i j w, nth_error (rows_with_id i (f_rows (get_results t'))) j = Some w ->
  nth_error (rows_with_id i (f_rows (get_results t'))) (S j) = None ->
  Z.of_nat (S (row_gen w)) <> t_limit t ->
  (forall f, In f (flat_map surface_ids comps) -> s_id f = row_surf w -> s_mat f <> Absorber) ->
  exists w', follows w w' /\ bounce (flat_map surface_ids comps) w w' /\
    let r := Ray (here (row_start w')) (row_tilt w') in
    ((forall s, In s comps -> visible r s) -> (forall q, separate comps r q) -> forall s q, In s comps -> undisturbed s r q).
Proof.
  intros asort AS gen h t comps fuel t' PR T i j w J J' L A.
  destruct (proper_bounces asort AS _ _ _ _ _ _ PR T i _ eq_refl) as (_ & _ & B).
  destruct (B j w J J') as [O|[(s & I & E & M)|(w' & FO & BO & U & D & N)]].
  - contradiction.
  - exfalso. apply (A s I E M).
  - exists w'. split; auto. split; auto. intros r V SP. refine (proj1 (no_crossing asort AS comps r _ V SP) N). apply unit_world_ray; auto.
Qed.
Print Assumptions C95_rays_end_in_the_open_partial.

(** A ray through a ball joined with a block and pierced by a rod first meets the ball *)
Example C95_case : forall asort, argsort_ok asort ->
  world_ray long_ray /\ (forall s, In s [part asort] -> visible long_ray s) /\ 0 < 5 - k1 /\ separate [part asort] long_ray 10 /\
  first_hit asort [part asort] long_ray (5 - k1) (s_id ball).
Proof.
  intros asort AS. destruct (part_case asort AS) as (A & B & C & D & E & F & G & H). repeat (split; auto).
  refine (proj2 (first_crossing asort AS [part asort] long_ray (5 - k1) (s_id ball) A B C _) _).
  - intros t T. apply D. pose proof k_values. lra.
  - split.
    + intros s [<-|[]]. auto.
    + exists (part asort), ball. split; [left; auto|]. repeat (split; auto).
Qed.
