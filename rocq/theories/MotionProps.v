(** * MotionProps: moving the whole bench *)
From Coq Require Import Reals List Bool ZArith Lra Lia Psatz.
Import ListNotations.
From Verif Require Import XR XRFacts Arr Lin LinFacts Prim Csg CsgProps Surf SpecGeom SpecTree World SpecWorld WorldFacts WorldFacts2 WorldFacts3 WorldFacts4 WorldFacts5 WorldExamples
  Tracer SpecTrace TraceFacts8 TraceProps Sources SpecSources SourceProps SpecOptics SpecMotion MotionFacts MotionFacts2 MotionFacts3 MotionFacts4 MotionFacts5.
Open Scope R_scope.

Lemma shape_surfaces : forall m s s', moved_shape m s s' -> Forall2 (moved_surf m) (surface_ids s) (surface_ids s').
Proof.
  intros m s s' H. induction H; cbn [surface_ids]; [constructor; [auto|constructor]|apply Forall2_app; auto].
Qed.
Lemma flat_forall2 : forall A B (P : A -> A -> Prop) (Q : B -> B -> Prop) (f : A -> list B) l l',
  (forall a a', In a l -> P a a' -> Forall2 Q (f a) (f a')) -> Forall2 P l l' -> Forall2 Q (flat_map f l) (flat_map f l').
Proof.
  intros A B P Q f l l' H F. induction F as [|a a' l l' Pa F IH]; cbn [flat_map]; [constructor|].
  apply Forall2_app; [apply H; [left; auto|auto]|apply IH; intros; apply H; [right; auto|auto]].
Qed.
Lemma forall2_in_r : forall A B (P : A -> B -> Prop) l l' b, Forall2 P l l' -> In b l' -> exists a, In a l /\ P a b.
Proof. intros A B P l l' b F. induction F; intros []; [subst; eexists; split; [left; reflexivity|auto]|]. destruct IHF as (a & I & Q); auto. exists a. split; [right|]; auto. Qed.
Lemma carry_ok : forall m, isometry m -> forall c, ray_ok c -> ray_ok (carry m c).
Proof.
  intros m ISO c (O & D & U & N). unfold carry, with_ray, ray_map, ray_ok; cbn [c_ray origin direction c_idx].
  rewrite !(iso_w m ISO). split; [auto|]. split; [auto|]. split; [|auto]. destruct U as [U|U].
  - left. unfold unit in *. rewrite (iso_dot m ISO) by auto. auto.
  - right. rewrite U. apply mapply_zero.
Qed.

Theorem bench_moved : forall asort, argsort_ok asort -> forall m, isometry m ->
  forall gen h t comps gen' h' u comps' fuel t' fuel',
  proper gen h t comps -> scene h' u comps' -> t_limit u = t_limit t ->
  source_rays gen' u = map (carry m) (source_rays gen t) -> t_sources u <> [] ->
  Forall2 (moved_shape m) comps comps' ->
  trace asort h gen fuel t = TOk t' -> (2 * Z.to_nat (t_limit t) + 2 <= fuel')%nat ->
  exists u', trace asort h' gen' fuel' u = TOk u' /\
    f_rows (get_results u') = map (move_row m) (f_rows (get_results t')).
Proof.
  intros asort AS m ISO gen h t comps gen' h' u comps' fuel t' fuel' P SU EL SR NE MV T FU.
  pose proof P as (SC & LIM & SRC & RAYS & PARTS).
  assert (MS : Forall2 (moved_surf m) (flat_map surface_ids comps) (flat_map surface_ids comps')).
  { apply (flat_forall2 _ _ (moved_shape m)); [|exact MV]. intros. apply shape_surfaces; auto. }
  assert (PU : proper gen' h' u comps').
  { split; [exact SU|]. split; [rewrite EL; exact LIM|]. split; [exact NE|]. split.
    - intros c I. rewrite SR in I. apply in_map_iff in I. destruct I as (c0 & <- & I). destruct (RAYS c0 I) as (OK & G0).
      split; [apply carry_ok; auto|exact G0].
    - intros s' I. destruct (forall2_in_r _ _ _ _ _ _ MS I) as (s & Is & (E1 & E2 & E3 & E4 & E5 & E6)).
      destruct (PARTS s Is) as (P1 & P2 & P3 & P4 & P5 & P6). unfold part_ok. rewrite E2, E3, E4.
      split; [exact P1|]. split; [rewrite E5; apply affine_mmul; [apply ISO|exact P2]|]. split; [exact E6|]. split; [exact P4|]. split; [exact P5|].
      destruct (s_mat s); cbn [optical] in *; auto. intros wl (c & Ic & Wc). rewrite SR in Ic. apply in_map_iff in Ic. destruct Ic as (c0 & <- & Ic).
      apply P6. exists c0. split; auto. }
  destruct (proper_trace_ok asort AS _ _ _ _ fuel' PU) as (u' & U); [rewrite EL; exact FU|].
  exists u'. split; [exact U|].
  assert (INV : forall s f, In s comps -> In f (surface_ids s) -> is_inverse (s_world f) (s_obj f)).
  { intros s f Is If. apply PARTS. apply in_flat_map. eauto. }
  eapply (trace_moved asort AS m ISO h gen fuel t t' comps h' gen' fuel' u u' comps'); eauto.
  - intros c I. destruct (RAYS c I) as ((O & D & _) & G0). auto.
  - clear - ISO MV INV. induction MV as [|s s' l l' A MV IH]; constructor.
    + apply (shape_moved asort m ISO s s' A). intros; eapply INV; [left; reflexivity|auto].
    + apply IH. intros; eapply INV; [right; eauto|auto].
  - apply (flat_forall2 _ _ (moved_shape m)); [|exact MV]. intros s s' Is A. apply (shape_moved asort m ISO s s' A). intros; eapply INV; eauto.
Qed.

(** ** Programs *)
Lemma comps_shapes : forall h ls comps, map (shape_of h) ls = map Some comps ->
  forall l, In l ls -> exists s, In s comps /\ shape_of h l = Some s.
Proof.
  intros h ls comps H l I. assert (J : In (shape_of h l) (map Some comps)) by (rewrite <- H; apply in_map; auto).
  apply in_map_iff in J. destruct J as (s & E & J). exists s. auto.
Qed.
Lemma shape_kind : forall h l s, shape_of h l = Some s -> exists o, get h l = Some o /\ is_shape (o_kind o).
Proof.
  intros h l s H. unfold shape_of, depth in H. cbn [shape_fuel] in H. destruct (get h l) as [o|]; [|discriminate]. exists o. split; auto.
  destruct (o_kind o); try discriminate; exact Logic.I.
Qed.
Lemma same_ids : forall m l l', Forall2 (moved_surf m) l l' -> map s_id l' = map s_id l.
Proof. intros m l l' F. induction F as [|a b l l' (E & _) F IH]; cbn [map]; congruence. Qed.
Lemma scene_moved : forall m h h' t comps comps', keeps h h' -> scene h t comps ->
  map (shape_of h') (t_comps t) = map Some comps' -> Forall2 (moved_shape m) comps comps' -> scene h' t comps'.
Proof.
  intros m h h' t comps comps' K (SH & (luts & CL & EL) & ND) SH' MV. split; [exact SH'|]. split.
  - exists luts. split; [|exact EL]. eapply collect_lut_keeps; eauto.
  - assert (MS : Forall2 (moved_surf m) (flat_map surface_ids comps) (flat_map surface_ids comps')).
    { apply (flat_forall2 _ _ (moved_shape m)); [|exact MV]. intros. apply shape_surfaces; auto. }
    rewrite (same_ids _ _ _ MS). exact ND.
Qed.
Lemma read_all : forall (m : mat) (h h' : heap) ls comps, map (shape_of h) ls = map Some comps ->
  (forall l s, In l ls -> shape_of h l = Some s -> exists s', shape_of h' l = Some s' /\ moved_shape m s s') ->
  exists comps', map (shape_of h') ls = map Some comps' /\ Forall2 (moved_shape m) comps comps'.
Proof.
  intros m h h' ls. induction ls as [|l ls IH]; intros comps H R; destruct comps as [|s comps]; cbn [map] in H; try discriminate.
  - exists []. split; [reflexivity|constructor].
  - injection H as E H. destruct (R l s (or_introl eq_refl) E) as (s' & E' & MS).
    destruct (IH comps H) as (comps' & H' & F); [intros; eapply R; [right; auto|auto]|].
    exists (s' :: comps'). cbn [map]. rewrite E', H'. split; [reflexivity|constructor; auto].
Qed.

(** every component a surface, any rigid motion *)
Theorem surfaces_moved : forall asort, argsort_ok asort -> forall cs h gen t comps mo m h' gen' fuel t' fuel',
  run_prog asort cs empty_heap = Ok h -> proper gen h t comps ->
  (forall l, In l (t_comps t) -> exists o p k, get h l = Some o /\ o_kind o = KSurf p k) -> NoDup (t_comps t) ->
  rigid mo -> motion_matrix mo = Some m ->
  run_prog asort (map (fun l => CMotion l mo) (t_comps t)) h = Ok h' ->
  source_rays gen' t = map (carry m) (source_rays gen t) ->
  trace asort h gen fuel t = TOk t' -> (2 * Z.to_nat (t_limit t) + 2 <= fuel')%nat ->
  exists u', trace asort h' gen' fuel' t = TOk u' /\
    f_rows (get_results u') = map (move_row m) (f_rows (get_results t')).
Proof.
  intros asort AS cs h gen t comps mo m h' gen' fuel t' fuel' H P SF ND RG M H' SR T FU.
  pose proof (wf_run_prog _ _ _ _ wf_empty H) as W. pose proof (run_prog_good _ _ _ _ empty_good H) as A.
  assert (PT : forall l, In l (t_comps t) -> parts h l = [l]).
  { intros l I. destruct (SF l I) as (o & p & k & G & K). unfold parts, depth. cbn [parts_upto]. rewrite G, K. reflexivity. }
  assert (FE : flat_map (parts h) (t_comps t) = t_comps t).
  { clear - PT. induction (t_comps t) as [|l ls IH]; cbn [flat_map]; [reflexivity|]. rewrite PT by (left; auto). cbn [app]. f_equal. apply IH. intros; apply PT; right; auto. }
  destruct (move_all asort mo m M (t_comps t) h h' W A) as (SK & A' & MV & _).
  { intros l I. destruct (SF l I) as (o & p & k & G & K). exists o. rewrite K. split; [auto|exact Logic.I]. }
  { rewrite FE. exact ND. }
  { exact H'. }
  rewrite FE in MV. pose proof P as ((SH & TC & NDI) & _).
  destruct (read_all m h h' (t_comps t) comps SH) as (comps' & SH' & MVS).
  { intros l s I E. destruct (SF l I) as (o & p & k & G & K).
    destruct (read_moved_leaf h h' m l o p k G K A') as (s1 & s' & E1 & E' & MS).
    - intros o1 G1. apply (MV l o1 I G1).
    - unfold depth. destruct SK as (_ & -> & _). reflexivity.
    - rewrite E in E1. injection E1 as <-. eauto. }
  assert (KP : keeps h h').
  { split; [destruct SK as (_ & -> & _); lia|]. intros x o G _. destruct (proj2 (proj2 SK) _ _ G) as (o' & G' & (I' & K' & _)). eauto. }
  eapply (bench_moved asort AS m (motion_isometry mo m RG M) gen h t comps gen' h' t comps'); eauto.
  - eapply scene_moved; eauto. apply P.
  - apply P.
Qed.

(** any components whose boxes are current, translations *)
Theorem components_translated : forall asort, argsort_ok asort -> by_comparison asort -> forall cs h gen t comps x y z h' gen' fuel t' fuel',
  run_prog asort cs empty_heap = Ok h -> proper gen h t comps ->
  NoDup (flat_map (parts h) (t_comps t)) -> (forall l, In l (t_comps t) -> right_simple h l) ->
  (forall p, In p (flat_map (parts h) (t_comps t)) -> box_current asort h p) ->
  run_prog asort (map (fun l => CMotion l (Move x y z)) (t_comps t)) h = Ok h' ->
  source_rays gen' t = map (carry (shift x y z)) (source_rays gen t) ->
  trace asort h gen fuel t = TOk t' -> (2 * Z.to_nat (t_limit t) + 2 <= fuel')%nat ->
  exists u', trace asort h' gen' fuel' t = TOk u' /\
    f_rows (get_results u') = map (move_row (shift x y z)) (f_rows (get_results t')).
Proof.
  intros asort AS BC cs h gen t comps x y z h' gen' fuel t' fuel' H P ND RS CB H' SR T FU.
  pose proof (wf_run_prog _ _ _ _ wf_empty H) as W. pose proof (run_prog_good _ _ _ _ empty_good H) as A.
  pose proof P as ((SH & TC & NDI) & _ & _ & _ & PARTS).
  destruct (move_all asort (Move x y z) (shift x y z) eq_refl (t_comps t) h h' W A) as (SK & A' & MV & _ & _ & CU).
  { intros l I. destruct (comps_shapes h _ _ SH l I) as (s & _ & E). eapply shape_kind; eauto. }
  { exact ND. }
  { exact H'. }
  specialize (CU RS).
  destruct (read_all (shift x y z) h h' (t_comps t) comps SH) as (comps' & SH' & MVS).
  { intros l s I E. destruct (comps_shapes h _ _ SH l I) as (s1 & Is & E1). rewrite E in E1. injection E1 as <-.
    destruct (read_moved asort BC x y z h h' A A' (depth h) l s E) as (s' & E' & MS & _).
    - intros f If. apply PARTS. apply in_flat_map. eauto.
    - intros a o Ia Ga. apply MV; [apply in_flat_map; exists l; auto|auto].
    - intros a Ia. assert (J : In a (flat_map (parts h) (t_comps t))) by (apply in_flat_map; exists l; auto). split; auto.
    - exists s'. split; [|auto]. unfold shape_of. replace (depth h') with (depth h); [exact E'|]. unfold depth. destruct SK as (_ & -> & _). reflexivity. }
  assert (KP : keeps h h').
  { split; [destruct SK as (_ & -> & _); lia|]. intros a o G _. destruct (proj2 (proj2 SK) _ _ G) as (o' & G' & (I' & K' & _)). eauto. }
  eapply (bench_moved asort AS (shift x y z) (motion_isometry (Move x y z) _ Logic.I eq_refl) gen h t comps gen' h' t comps'); eauto.
  - eapply scene_moved; eauto. apply P.
  - apply P.
Qed.
