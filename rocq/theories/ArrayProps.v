(** * ArrayProps: end to end facts about the array tracer *)
From Coq Require Import Reals List Bool ZArith Arith Lia Lra.
Import ListNotations.
From Verif Require Import XR XRFacts Arr Lin LinFacts Ops Prim Csg CsgProps Surf World Tracer SpecTrace TraceFacts TraceFacts2 TraceFacts8 Sources SpecSources SourceFacts SourceProps
  Batch BatchFacts BatchFacts2 BatchOps BatchOpsFacts RaySet SpecRaySet RaySetFacts RaySetProps BatchTracer BatchTraceFacts BatchTraceFacts2
  BatchSources SpecArray BatchTraceFacts3 TraceProps TraceExamples.
Open Scope R_scope.

Lemma array_trace : forall asort, argsort_ok asort -> forall h arrays rays ss ls n limit b t,
  new_btracer h ss ls n limit = Some b -> new_tracer h ss ls n limit = Some t ->
  (forall s, In s ss -> holds (arrays s n) (rays s n)) ->
  forall fuel,
  (forall t', trace asort h rays fuel t = TOk t' -> exists b', b_trace asort h arrays fuel b = BOk b' /\
     b_frame b' = map row_numbers (f_rows (get_results t')) /\ b_gen b' = t_gen t' /\ b_complete b' = t_complete t') /\
  (forall e t', trace asort h rays fuel t = TRaise e t' -> b_trace asort h arrays fuel b = BErr e) /\
  (trace asort h rays fuel t = TFuel -> b_trace asort h arrays fuel b = BFuel).
Proof.
  intros asort AS h arrays rays ss ls n limit b t B T H fuel.
  pose proof (trace_same asort AS h arrays rays fuel ss ls n limit b t B T H) as S.
  split; [|split]; intros; rewrite H0 in S; cbn [same] in S; try exact S.
  destruct S as (b' & E & F & _ & G & C & _). exists b'. auto.
Qed.

Lemma new_both : forall h ss ls n limit,
  (exists b t, new_btracer h ss ls n limit = Some b /\ new_tracer h ss ls n limit = Some t) \/
  (new_btracer h ss ls n limit = None /\ new_tracer h ss ls n limit = None).
Proof.
  intros. unfold new_btracer, new_tracer. destruct (collect (map (lut_of h) ls)); [left; eauto|right; auto].
Qed.

(** the list of rays of a placed source *)
Definition placed_rays (rnd : nat -> R) (x : placed) (n : nat) : list col :=
  match collect (fst (generate_rays rnd (p_kind x) (p_wl x) (p_world x) (p_draw x) n)) with Some l => l | None => [] end.
Lemma placed_emits : forall rnd n x, placed_ok rnd n x ->
  emits rnd (p_kind x) (p_wl x) (p_world x) (p_draw x) n (placed_rays rnd x n) /\
  (exists rs, placed_array rnd x n = Some rs /\ holds rs (placed_rays rnd x n)) /\
  forall c, In c (placed_rays rnd x n) -> ray_ok c /\ c_gen c = O /\ c_wl c = p_wl x.
Proof.
  intros rnd n x (A & (i & I) & rays & E). destruct (emits_ok _ _ _ _ _ _ _ _ I A E) as (rays' & E' & F & K).
  assert (C : collect (fst (generate_rays rnd (p_kind x) (p_wl x) (p_world x) (p_draw x) n)) = Some rays').
  { unfold emits in E'. rewrite E'. apply collect_map_some. }
  unfold placed_rays. rewrite C. split; [exact E'|]. split; [apply generate_held; exact C|].
  intros c IN. destruct (K c IN). split; [assumption|]. split; [assumption|].
  unfold emits in E'. rewrite generate_eq in E'. apply (in_map Some) in IN. rewrite <- E' in IN.
  apply in_map_iff in IN. destruct IN as (l & P & L). unfold place_ray in P.
  destruct (vnormalize _); [|discriminate]. injection P as <-. cbn.
  clear - L. destruct (p_kind x); [rewrite line_local in L|rewrite circle_local in L|rewrite cone_local in L|rewrite wedge_local in L|rewrite lamp_local in L];
    apply in_map_iff in L; destruct L as (k & X & _); subst l; try (destruct (Nat.ltb 1 n)); reflexivity.
Qed.

Lemma end_to_end : forall asort, argsort_ok asort -> forall rnd (src : loc -> placed) h ss ls n limit b t comps,
  new_btracer h ss ls n limit = Some b -> new_tracer h ss ls n limit = Some t ->
  (forall s, In s ss -> placed_ok rnd n (src s)) -> ss <> [] -> (1 <= limit)%Z ->
  scene h t comps ->
  (forall s, In s (flat_map surface_ids comps) -> part_ok (fun wl => exists x, In x ss /\ p_wl (src x) = wl) s) ->
  forall fuel, (2 * Z.to_nat limit + 2 <= fuel)%nat ->
  forall arrays, (forall s, In s ss -> placed_array rnd (src s) n = Some (arrays s n)) ->
  exists b' lists rows, b_trace asort h arrays fuel b = BOk b' /\ b_complete b' = true /\
    Forall2 (fun s rays => emits rnd (p_kind (src s)) (p_wl (src s)) (p_world (src s)) (p_draw (src s)) n rays) ss lists /\
    b_frame b' = map row_numbers rows /\
    forall i c, nth_error (concat lists) i = Some c ->
      history asort comps (flat_map surface_ids comps) limit 0 (with_id i c) (rows_with_id i rows).
Proof.
  intros asort AS rnd src h ss ls n limit b t comps B T OK NE LM SC PO fuel FU arrays AR.
  destruct (new_tracer_table _ _ _ _ _ _ T) as (TC & EC & ES & EN & EL).
  set (rays := fun (s : loc) (m : nat) => placed_rays rnd (src s) n).
  assert (H : forall s, In s ss -> holds (arrays s n) (rays s n)).
  { intros s I. destruct (placed_emits rnd n (src s) (OK s I)) as (_ & (rs & E & K) & _).
    rewrite (AR s I) in E. injection E as ->. exact K. }
  assert (SRC : forall c, In c (source_rays rays t) -> exists s, In s ss /\ In c (rays s n)).
  { intros c I. unfold source_rays in I. apply in_concat in I. destruct I as (l & L & I). apply in_map_iff in L.
    destruct L as (s & <- & Is). rewrite ES in Is. exists s. rewrite EN in I. auto. }
  assert (P : proper rays h t comps).
  { split; [exact SC|]. split; [rewrite EL; exact LM|]. split; [rewrite ES; exact NE|]. split.
    - intros c I. destruct (SRC c I) as (s & Is & Ic). destruct (placed_emits rnd n (src s) (OK s Is)) as (_ & _ & K).
      destruct (K c Ic) as (K1 & K2 & _). auto.
    - intros s I. destruct (PO s I) as (P1 & P2 & P3 & P4 & P5 & P6). repeat (split; [assumption|]).
      destruct (s_mat s); cbn [optical] in *; auto. intros wl (c & Ic & W). apply P6.
      destruct (SRC c Ic) as (x & Ix & Jx). exists x. split; [exact Ix|].
      destruct (placed_emits rnd n (src x) (OK x Ix)) as (_ & _ & K). destruct (K c Jx) as (_ & _ & K3). congruence. }
  destruct (proper_trace_ok asort AS rays h t comps fuel P) as (t' & TR).
  { rewrite EL. exact FU. }
  destruct (proj1 (array_trace asort AS h arrays rays ss ls n limit b t B T H fuel) t' TR) as (b' & E & F & G & C).
  exists b', (map (fun s => rays s n) ss), (f_rows (get_results t')). split; [exact E|]. split.
  - rewrite C. destruct (trace_inv asort h rays fuel t t' TR) as (? & ? & ? & _ & _ & _ & _ & _ & _ & _ & _ & Z & _). exact Z.
  - split; [|split; [exact F|]].
    + clear - OK. induction ss as [|s ss IH]; cbn [map]; constructor.
      * apply (placed_emits rnd n (src s) (OK s (or_introl eq_refl))).
      * apply IH. intros; apply OK; right; auto.
    + intros i c N. rewrite <- EL. apply (scene_histories asort AS h rays fuel t t' comps TR SC).
      unfold source_rays. rewrite ES, EN. exact N.
Qed.
