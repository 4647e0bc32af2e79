(** * MotionExamples: benches that are moved, and one that cannot be *)
From Coq Require Import Reals List Bool ZArith Lra Lia Psatz Classical.
Import ListNotations.
From Verif Require Import XR XRFacts Arr Lin LinFacts Prim Csg CsgProps Surf SpecCsg SpecGeom SpecTree TreeFacts TreeExamples UnionFacts World SpecWorld
  WorldFacts WorldFacts2 WorldFacts3 WorldFacts4 WorldFacts5 WorldExamples
  Tracer SpecTrace TraceFacts4 TraceFacts8 TraceExamples TraceProps Sources SpecSources SourceFacts SourceProps SpecOptics
  SpecMotion MotionFacts MotionFacts2 MotionFacts3 MotionFacts4 MotionFacts5 MotionProps.
Open Scope R_scope.

(** ** moved sources *)
Lemma source_moved : forall rnd s wl W p n rays m, isometry m -> affine W -> emits rnd s wl W p n rays ->
  emits rnd s wl (mmul m W) p n (map (carry m) rays).
Proof.
  intros rnd s wl W p n rays m ISO A E. unfold emits in *. rewrite generate_eq in *.
  assert (K : forall l, In l (fst (local_rays rnd s wl p n)) -> vw (direction (c_ray l)) = 0).
  { intros l L. destruct s; [rewrite line_local in L|rewrite circle_local in L|rewrite cone_local in L|rewrite wedge_local in L|rewrite lamp_local in L];
      apply in_map_iff in L; destruct L as [k [X _]]; subst l; try (destruct (Nat.ltb 1 n)); reflexivity. }
  revert rays E K. induction (fst (local_rays rnd s wl p n)) as [|l ls IH]; intros rays E K; destruct rays as [|c rays]; cbn [map] in *; try discriminate; [reflexivity|].
  injection E as E1 E2. rewrite (IH rays E2) by (intros; apply K; right; auto). f_equal.
  unfold place_ray in *. cbn [c_ray with_ray ray_map direction] in *. rewrite mapply_mmul.
  rewrite (iso_normalize m ISO) by (rewrite affine_w by auto; apply K; left; auto).
  destruct (vnormalize (mapply W (direction (c_ray l)))) as [d|]; [|discriminate]. injection E1 as <-. cbn [option_map].
  unfold carry, with_direction, with_ray, ray_map; cbn [c_ray c_gen c_int c_wl c_idx c_id origin direction]. rewrite mapply_mmul. reflexivity.
Qed.
Lemma carried_sources : forall m (gen : loc -> nat -> list col) t,
  source_rays (fun s n => map (carry m) (gen s n)) t = map (carry m) (source_rays gen t).
Proof.
  intros m gen t. unfold source_rays. induction (t_sources t) as [|s ss IH]; cbn [map concat]; [reflexivity|]. rewrite IH, map_app. reflexivity.
Qed.

(** ** programs that move every component succeed *)
Lemma moves_succeed : forall asort mo m, rigid mo -> motion_matrix mo = Some m -> forall ls cs h,
  run_prog asort cs empty_heap = Ok h -> Forall no_set cs -> Forall affine_call cs ->
  (forall l, In l ls -> exists o, get h l = Some o) -> exists h', run_prog asort (map (fun l => CMotion l mo) ls) h = Ok h'.
Proof.
  intros asort mo m R M ls. induction ls as [|l ls IH]; intros cs h H N A G; cbn [map run_prog]; [eauto|].
  destruct (G l (or_introl eq_refl)) as (o & Gl). destruct (rigid_succeeds asort cs h l o mo m H N A Gl R M) as (h1 & E).
  cbn [run_call]. rewrite E. cbn [bind]. apply (IH (cs ++ [CMotion l mo])).
  - rewrite run_prog_app, H. cbn [bind run_prog run_call]. rewrite E. reflexivity.
  - apply Forall_app. split; [auto|]. constructor; [exact Logic.I|constructor].
  - apply Forall_app. split; [auto|]. constructor; [|constructor]. destruct mo; try exact Logic.I. destruct R.
  - intros l' I. destruct (G l' (or_intror I)) as (o' & G'). pose proof E as E0. unfold apply_motion in E0. rewrite M in E0.
    destruct (transform_part _ _ _ _ _ _ _ E0 G') as (o1 & G1 & _). eauto.
Qed.

(** ** mirror and absorber, turned by 30 degrees about the y axis *)
Lemma turned_bench : forall asort, argsort_ok asort -> exists h t t' h' m,
  run_prog asort bench_calls empty_heap = Ok h /\ proper (emit 1 1) h t (map bench_shape [0; 2]%nat) /\ t_comps t = [0; 2]%nat /\
  (forall l, In l (t_comps t) -> exists o p k, get h l = Some o /\ o_kind o = KSurf p k) /\ NoDup (t_comps t) /\
  motion_matrix (RotY 30 Deg) = Some m /\ run_prog asort (map (fun l => CMotion l (RotY 30 Deg)) (t_comps t)) h = Ok h' /\
  trace asort h (emit 1 1) 9 t = TOk t' /\ f_rows (get_results t') = [out_row 1; back_row 1].
Proof.
  intros asort AS. destruct (mirror_case asort) as (h & t & t' & (H & NT) & P & T & F).
  destruct (new_tracer_table _ _ _ _ _ _ NT) as (_ & EC & _).
  assert (EX : forall l, In l (t_comps t) -> exists o p k, get h l = Some o /\ o_kind o = KSurf p k).
  { intros l I. pose proof P as ((SH & _) & _). rewrite EC in *.
    assert (SHL : shape_of h l = Some (bench_shape l)).
    { cbn [map] in SH. injection SH as S1 S2. destruct I as [<-|[<-|[]]]; assumption. }
    unfold shape_of, depth in SHL. cbn [shape_fuel] in SHL. destruct (get h l) as [o|]; [|discriminate].
    exists o. destruct (o_kind o) as [|p k|op a b|ms] eqn:K; try discriminate; [exists p, k; auto|].
    destruct (shape_fuel _ h a); [|discriminate]. destruct (shape_fuel _ h b); [|discriminate].
    destruct I as [<-|[<-|[]]]; discriminate. }
  destruct (motion_matrix (RotY 30 Deg)) as [m|] eqn:M; [|discriminate].
  destruct (moves_succeed asort (RotY 30 Deg) m Logic.I M (t_comps t) bench_calls h H) as (h' & H').
  { repeat constructor. }
  { repeat constructor. }
  { intros l I. destruct (EX l I) as (o & _ & _ & G & _). eauto. }
  exists h, t, t', h', m. split; [exact H|]. split; [exact P|]. split; [exact EC|]. split; [exact EX|]. split; [|split; [reflexivity|split; [exact H'|split; [exact T|exact F]]]].
  rewrite EC. repeat constructor; cbn; intuition discriminate.
Qed.

(** ** three unit cubes, one ray through the middle *)
Definition needle : col := Col (Ray (point (1 / 2) (1 / 2) (-5)) (vector 0 0 1)) 0 100 (633 / 1000) 1 0.
Definition one_ray (s : loc) (n : nat) : list col := [needle].
Lemma needle_ok : forall t, t_sources t = [9%nat] -> (forall c, In c (source_rays one_ray t) -> ray_ok c /\ c_gen c = O) /\ source_rays one_ray t = [needle].
Proof.
  intros t E. assert (S : source_rays one_ray t = [needle]) by (unfold source_rays; rewrite E; reflexivity). split; [|exact S].
  intros c I. rewrite S in I. destruct I as [<-|[]]. split; [|reflexivity]. unfold ray_ok, needle; cbn [c_ray origin direction c_idx point vector vw].
  split; [reflexivity|]. split; [reflexivity|]. split; [left|lra]. unfold unit, vdot, vector; cbn [vx vy vz vw]. ring.
Qed.
Lemma cubes_fit : forall P cs, cs = cubes3 \/ cs = cubes3' -> Forall (fit_call P) cs.
Proof. intros P cs [->| ->]; repeat constructor. Qed.
Lemma cubes_scene : forall asort cs h ls h' cs', argsort_ok asort -> cs = cubes3 \/ cs = cubes3' -> run_prog asort cs empty_heap = Ok h ->
  NoDup (flat_map (parts h) [4%nat]) -> (exists s, shape_of h 4%nat = Some s) -> ls = [4%nat] ->
  (forall P, Forall (fit_call P) cs') -> run_prog asort cs' h = Ok h' ->
  exists t, new_tracer h [9%nat] ls 1 10 = Some t /\ t_comps t = ls /\ t_limit t = 10%Z /\ t_sources t = [9%nat] /\
    (exists comps, proper one_ray h t comps) /\ exists comps, proper (fun s n => map (carry (shift 10 0 0)) (one_ray s n)) h' t comps.
Proof.
  intros asort cs h ls h' cs' AS C H ND (s & SH) -> F H'. unfold shape_of in SH. destruct (shape_lut _ _ _ _ SH) as (lut & L & _).
  assert (NT : exists t, new_tracer h [9%nat] [4%nat] 1 10 = Some t).
  { unfold new_tracer. cbn [map]. unfold lut_of. rewrite L. cbn [collect]. eauto. }
  destruct NT as (t & NT). destruct (new_tracer_table _ _ _ _ _ _ NT) as (_ & EC & ES & EN & EL).
  destruct (needle_ok t ES) as (OK & SR). exists t. do 4 (split; [auto|]). split.
  - eapply (program_proper asort one_ray cs [] h h [9%nat] [4%nat] 1 10 t t); eauto; try reflexivity.
    + rewrite EL. lia.
    + rewrite ES. discriminate.
    + rewrite app_nil_r. apply cubes_fit; auto.
  - eapply (program_proper asort _ cs cs' h h' [9%nat] [4%nat] 1 10 t t); eauto; try reflexivity.
    + rewrite EL. lia.
    + rewrite ES. discriminate.
    + intros c I. rewrite carried_sources, SR in I. destruct I as [<-|[]]. split; [|reflexivity].
      apply carry_ok; [apply (motion_isometry (Move 10 0 0) _ Logic.I eq_refl)|]. apply OK. rewrite SR. left. reflexivity.
    + apply Forall_app. split; [apply cubes_fit; auto|apply F].
Qed.

Lemma needle_at : forall t, ray_at (c_ray needle) t = point (1 / 2) (1 / 2) (-5 + t).
Proof. intro t. unfold ray_at, needle, point, vector, vadd, vscale; cbn [c_ray origin direction vx vy vz vw]. apply v4_eq; cbn [vx vy vz vw]; ring. Qed.
(** a solid that holds the middle of the unit cube and lies in it is hit *)
Lemma needle_hits : forall asort, argsort_ok asort -> forall s, tree_ok s -> boxes_current s -> boxes_fit s -> good_ray s (c_ray needle) ->
  (forall x, inside s (point (1 / 2) (1 / 2) x) <-> 0 <= x <= 1) ->
  exists k t sid, reports asort [s] (c_ray needle) 0 k t sid.
Proof.
  intros asort AS s T C F G IN. destruct (shape_inside asort AS s (c_ray needle) T C F) as (L & HL); [|exact G|].
  { unfold world_ray, moving, needle, point, vector; cbn [c_ray origin direction vx vy vz vw]. repeat split; lra. }
  destruct (avoid L 1 2) as (t0 & B0 & N0); [lra|]. destruct (avoid L (11 / 2) (23 / 4)) as (t1 & B1 & N1); [lra|].
  assert (I1 : inside_at xsle (Fin t1) (fst (shape_intersect asort s (c_ray needle))) = true).
  { apply HL; auto. rewrite needle_at. apply IN. lra. }
  assert (I0 : inside_at xsle (Fin t0) (fst (shape_intersect asort s (c_ray needle))) = false).
  { apply not_true_iff_false. intro K. apply HL in K; auto. rewrite needle_at in K. apply IN in K. lra. }
  set (hs := fst (shape_intersect asort s (c_ray needle))) in *.
  assert (EX : exists h, In h hs /\ before xsle h (Fin t0) = false /\ before xsle h (Fin t1) = true).
  { apply not_all_not_ex. intro K. assert (E : below xsle (Fin t1) hs = below xsle (Fin t0) hs).
    { unfold below. f_equal. clearbody hs. clear - K B0 B1. induction hs as [|h hs IH]; cbn [filter]; [reflexivity|].
      rewrite IH by (intros h' X; destruct X as (X1 & X2); apply (K h'); split; [right; exact X1|exact X2]).
      destruct (before xsle h (Fin t0)) eqn:E0, (before xsle h (Fin t1)) eqn:E1; auto; exfalso.
      - unfold before in *. destruct h as [h| | |]; cbn in E0, E1; try discriminate.
        apply negb_true_iff in E0. apply negb_false_iff in E1. apply rleb_false in E0. apply rleb_true in E1. lra.
      - apply (K h). split; [left; auto|auto]. }
    unfold inside_at in I0, I1. congruence. }
  destruct EX as (h & I & E0 & E1). assert (FH : exists t, h = Fin t /\ 0 < t).
  { unfold before in *. destruct h as [h| | |]; cbn in E0, E1; try discriminate. exists h. split; auto. apply negb_false_iff in E0. apply rleb_true in E0. lra. }
  destruct FH as (t & -> & P). apply In_nth_error in I. destruct I as (k & N).
  destruct (shape_columns asort AS s (c_ray needle)) as (_ & L1 & L2).
  destruct (nth_error (snd (shape_intersect asort s (c_ray needle))) k) as [sid|] eqn:NS.
  - exists k, t, sid, s. split; [reflexivity|]. split; [exact N|]. split; [exact NS|exact P].
  - exfalso. apply nth_error_None in NS. assert (k < length hs)%nat by (apply nth_error_Some; rewrite N; discriminate).
    unfold hs in *. lia.
Qed.

Lemma never_less : forall y z w, xltb (xmax (xmax PInf y) z) w = false.
Proof. intros [y| | |] [z| | |] [w| | |]; reflexivity. Qed.
Lemma cube_fixed : forall i k m n x, placed (Surf i (PCube (0, 0, 0) (1, 1, 1)) mid m n k) (point (1 / 2) (1 / 2) x) <-> 0 <= x <= 1.
Proof.
  intros i k m n x. unfold placed; cbn [s_prim s_world]. split.
  - intros (q & _ & S & E). rewrite mapply_mid in E. subst q. cbn [solid] in S. unfold between, point in S; cbn [vx vy vz vw] in S.
    rewrite !Rmin_left, !Rmax_right in S by lra. apply S.
  - intros B. exists (point (1 / 2) (1 / 2) x). split; [reflexivity|]. split; [|apply mapply_mid].
    cbn [solid]. unfold between, point; cbn [vx vy vz vw]. rewrite !Rmin_left, !Rmax_right by lra. lra.
Qed.
Lemma unit_overlap : overlapping (Fin 0, Fin (0 + 1)) (Fin 0, Fin (0 + 1)).
Proof. unfold overlapping; cbn [fst snd]. rewrite xmax_fin, xmin_fin. cbn [xltb]. apply rltb_true. rewrite Rmax_left, Rmin_left by lra. lra. Qed.
Lemma clear_axis : clear 0 /\ clear 1.
Proof. split; [left; reflexivity|right]. unfold atol. rewrite Rabs_R1. lra. Qed.

(** moving union(a, union(b, c)) by 10 loses the hit *)
Lemma lost_union : forall asort, argsort_ok asort -> exists h t h' t' u',
  run_prog asort cubes3 empty_heap = Ok h /\ new_tracer h [9%nat] [4%nat] 1 10 = Some t /\ NoDup (flat_map (parts h) (t_comps t)) /\
  (forall p, In p (flat_map (parts h) (t_comps t)) -> box_current asort h p) /\
  (exists comps, proper one_ray h t comps) /\
  run_prog asort (map (fun l => CMotion l (Move 10 0 0)) (t_comps t)) h = Ok h' /\
  trace asort h one_ray 22 t = TOk t' /\ trace asort h' (fun s n => map (carry (shift 10 0 0)) (one_ray s n)) 22 t = TOk u' /\
  f_rows (get_results t') <> [] /\ f_rows (get_results u') = [].
Proof.
  intros asort AS.
  assert (X : exists h h' s s', run_prog asort cubes3 empty_heap = Ok h /\ NoDup (flat_map (parts h) [4%nat]) /\
    run_prog asort (map (fun l => CMotion l (Move 10 0 0)) [4%nat]) h = Ok h' /\
    shape_of h 4%nat = Some s /\ shape_of h' 4%nat = Some s' /\ boxes_fit s /\ good_ray s (c_ray needle) /\
    (forall x, inside s (point (1 / 2) (1 / 2) x) <-> 0 <= x <= 1) /\
    box_hit (shape_box s') (c_ray (carry (shift 10 0 0) needle)) = false /\ exists i op b l r, s' = Node i op b l r).
  { do 4 eexists. split; [unfold cubes3; go; reflexivity|].
    split; [cbn; repeat constructor; cbn; intuition discriminate|].
    split; [cbn [map run_prog]; go; reflexivity|].
    split; [reflexivity|]. split; [reflexivity|]. split; [|split; [|split; [|split]]].
    - cbn [boxes_fit shape_box]. rewrite !cube_box_start, !union_same by auto.
      unfold box_fits; cbn [spanx spany spanz span_fits]. pose proof unit_overlap. tauto.
    - cbn [good_ray s_prim s_obj]. unfold clear_dir, needle, good_local, clear_ray, ray_map, vector, point; cbn [c_ray origin direction vx vy vz vw].
      rewrite !mapply_mid. cbn [vx vy vz vw]. pose proof clear_axis. tauto.
    - intro x. cbn [inside]. rewrite !cube_fixed. tauto.
    - cbn [shape_box]. rewrite !cube_box_at, cube_box_start, !union_same, union_beside by (auto; lra).
      unfold box_hit, cube_hits, carry, needle, with_ray, ray_map, shift, mapply, vdot, point, vector;
        cbn [o_box c_ray origin direction row0 row1 row2 row3 vx vy vz vw spanx spany spanz].
      assert (E : cube_axis_hits (Fin 0, Fin (0 + 1)) (1 * (1 / 2) + 0 * (1 / 2) + 0 * -5 + 10 * 1) (1 * 0 + 0 * 0 + 0 * 1 + 10 * 0) = (PInf, PInf)).
      { unfold cube_axis_hits. replace (1 * 0 + 0 * 0 + 0 * 1 + 10 * 0) with 0 by ring. rewrite isclose_00. cbn [negb xleb].
        replace (rleb (1 * (1 / 2) + 0 * (1 / 2) + 0 * -5 + 10 * 1) (0 + 1)) with false by (symmetry; apply rleb_false; lra). reflexivity. }
      rewrite E. cbv beta iota zeta. repeat (destruct (cube_axis_hits _ _ _)). rewrite never_less. reflexivity.
    - do 5 eexists. reflexivity. }
  destruct X as (h & h' & s & s' & H & ND & H' & SH & SH' & FIT & GR & IN & MISS & (i & op & b & l & r & ES')).
  destruct (cubes_scene asort cubes3 h [4%nat] h' (map (fun l => CMotion l (Move 10 0 0)) [4%nat]) AS (or_introl eq_refl) H ND (ex_intro _ s SH) eq_refl) as
    (t & NT & EC & EL & ES & (comps & P) & (comps' & P')).
  { intro Q. repeat constructor. }
  { exact H'. }
  destruct (proper_trace_ok asort AS _ _ _ _ 22 P) as (t' & T); [rewrite EL; cbn; lia|].
  destruct (proper_trace_ok asort AS _ _ _ _ 22 P') as (u' & U); [rewrite EL; cbn; lia|].
  exists h, t, h', t', u'. split; [exact H|]. split; [exact NT|]. rewrite EC. split; [exact ND|]. split.
  { intros p _. apply (run_prog_current asort cubes3 empty_heap h); auto using wf_empty, empty_current. repeat constructor. }
  split; [exists comps; exact P|]. split; [exact H'|]. split; [exact T|]. split; [exact U|].
  destruct (needle_ok t ES) as (_ & SR). split.
  - intro Z.
    assert (K : rows_with_id 0 (f_rows (get_results t')) = []) by (rewrite Z; reflexivity).
    apply (no_row asort AS _ _ _ _ _ [s] T) with (c := needle) in K; [|rewrite EC; cbn [map]; rewrite SH; reflexivity|rewrite SR; reflexivity].
    destruct K as [K|K].
    + unfold stopped, needle in K; cbn [c_ray direction] in K. rewrite axis_norm in K by auto. unfold atol in K. lra.
    + destruct (needle_hits asort AS s) as (k & x & sid & R); auto.
      * eapply prog_tree_ok; [|exact H|exact SH]. repeat constructor.
      * eapply (fresh_boxes_current asort cubes3); eauto. repeat constructor.
      * exact (K _ _ _ _ R).
  - destruct (f_rows (get_results u')) as [|w ws] eqn:FR; [reflexivity|exfalso].
    assert (K : rows_with_id 0 (f_rows (get_results u')) = []).
    { apply (no_row asort AS _ _ _ _ _ [s'] U) with (c := carry (shift 10 0 0) needle); [rewrite EC; cbn [map]; rewrite SH'; reflexivity|rewrite carried_sources, SR; reflexivity|].
      right. intros j k x sid (s1 & N & A & _). destruct j as [|j]; [|destruct j; discriminate]. cbn [nth_error] in N. injection N as <-.
      subst s'. cbn [shape_box] in MISS. cbn [shape_intersect] in A. rewrite MISS in A. cbn [fst] in A. apply nth_error_In, repeat_spec in A. discriminate. }
    assert (W : In w (f_rows (get_results u'))) by (rewrite FR; left; auto).
    destruct (row_of_ray _ _ _ _ _ _ U w W) as (c & j & N & J). rewrite carried_sources, SR in N.
    destruct (row_id w) as [|q]; [|destruct q; discriminate]. rewrite K in J. destruct j; discriminate.
Qed.

(** the other nesting, union(union(a, b), c), keeps its box, and its one row moves *)
Lemma kept_union : forall asort, argsort_ok asort -> by_comparison asort -> exists h t h' t',
  run_prog asort cubes3' empty_heap = Ok h /\ (exists comps, proper one_ray h t comps) /\ t_comps t = [4%nat] /\
  NoDup (flat_map (parts h) (t_comps t)) /\ (forall l, In l (t_comps t) -> right_simple h l) /\
  (forall p, In p (flat_map (parts h) (t_comps t)) -> box_current asort h p) /\
  run_prog asort (map (fun l => CMotion l (Move 10 0 0)) (t_comps t)) h = Ok h' /\
  trace asort h one_ray 22 t = TOk t' /\ f_rows (get_results t') <> [].
Proof.
  intros asort AS BC.
  assert (X : exists h h' s, run_prog asort cubes3' empty_heap = Ok h /\ NoDup (flat_map (parts h) [4%nat]) /\ right_simple h 4%nat /\
    run_prog asort (map (fun l => CMotion l (Move 10 0 0)) [4%nat]) h = Ok h' /\
    shape_of h 4%nat = Some s /\ boxes_fit s /\ good_ray s (c_ray needle) /\
    (forall x, inside s (point (1 / 2) (1 / 2) x) <-> 0 <= x <= 1)).
  { do 3 eexists. split; [unfold cubes3'; go; reflexivity|].
    split; [cbn; repeat constructor; cbn; intuition discriminate|].
    split.
    { intros x o op a b I G K. cbn in I.
      repeat (destruct I as [<-|I]; [cbn in G; injection G as <-; cbn in K; try discriminate; injection K as <- <- <-|]); try destruct I;
        right; do 3 eexists; split; reflexivity. }
    split; [cbn [map run_prog]; go; reflexivity|].
    split; [reflexivity|]. split; [|split].
    - cbn [boxes_fit shape_box]. rewrite !cube_box_start, !union_same by auto.
      unfold box_fits; cbn [spanx spany spanz span_fits]. pose proof unit_overlap. tauto.
    - cbn [good_ray s_prim s_obj]. unfold clear_dir, needle, good_local, clear_ray, ray_map, vector, point; cbn [c_ray origin direction vx vy vz vw].
      rewrite !mapply_mid. cbn [vx vy vz vw]. pose proof clear_axis. tauto.
    - intro x. cbn [inside]. rewrite !cube_fixed. tauto. }
  destruct X as (h & h' & s & H & ND & RS & H' & SH & FIT & GR & IN).
  destruct (cubes_scene asort cubes3' h [4%nat] h' (map (fun l => CMotion l (Move 10 0 0)) [4%nat]) AS (or_intror eq_refl) H ND (ex_intro _ s SH) eq_refl) as
    (t & NT & EC & EL & ES & (comps & P) & _).
  { intro Q. repeat constructor. }
  { exact H'. }
  destruct (proper_trace_ok asort AS _ _ _ _ 22 P) as (t' & T); [rewrite EL; cbn; lia|].
  exists h, t, h', t'. split; [exact H|]. split; [exists comps; exact P|]. split; [exact EC|]. rewrite EC. split; [exact ND|].
  split; [intros l [<-|[]]; exact RS|]. split.
  { intros p _. apply (run_prog_current asort cubes3' empty_heap h); auto using wf_empty, empty_current. repeat constructor. }
  split; [exact H'|]. split; [exact T|].
  destruct (needle_ok t ES) as (_ & SR). intro Z.
  assert (K : rows_with_id 0 (f_rows (get_results t')) = []) by (rewrite Z; reflexivity).
  apply (no_row asort AS _ _ _ _ _ [s] T) with (c := needle) in K; [|rewrite EC; cbn [map]; rewrite SH; reflexivity|rewrite SR; reflexivity].
  destruct K as [K|K].
  - unfold stopped, needle in K; cbn [c_ray direction] in K. rewrite axis_norm in K by auto. unfold atol in K. lra.
  - destruct (needle_hits asort AS s) as (k & x & sid & R); auto.
    + eapply prog_tree_ok; [|exact H|exact SH]. repeat constructor.
    + eapply (fresh_boxes_current asort cubes3'); eauto. repeat constructor.
    + exact (K _ _ _ _ R).
Qed.
