(** * PrismExamples2: traces through the prism of PrismExamples *)
From Coq Require Import Reals List Bool ZArith Lra Lia Psatz.
Import ListNotations.
From Verif Require Import XR XRFacts Arr Lin LinFacts Ops OpsFacts SpecOptics Prim Csg Surf SpecGeom SpecTree CsgProps SurfFacts TreeFacts World SpecWorld WorldFacts WorldFacts3 WorldFacts5 WorldFacts4 Tracer SpecTrace
  TraceFacts4 TraceFacts5 TraceFacts7 TraceFacts8 TraceFacts9 TraceProps Components SpecComponents BuildFacts ComponentFacts ComponentFacts2 ComponentFacts3 SpecMotion MotionFacts SpecCrossing Crossing CrossingProps SymmetryExamples GaussExamples OpticsExamples
  SpecPrism PrismLaw PrismFacts PrismProps PrismExamples.
Open Scope R_scope.

Definition ball_calls : list call := [CSurface (PSphere 9) Absorber].
Definition prism_calls (gl : material) : list call := match equilateral_prism 2 2 gl with Makes p _ => p | _ => [] end.
(** Rays of several wavelengths along one line *)
Definition colours (e f : R) (wls : list R) (s : loc) (n : nat) : list col := map (fun wl => Col (ray_in e f) 0 100 wl 1 0) wls.

Lemma prism_scene : forall asort, argsort_ok asort -> forall idx e f wls, e * e + f * f = 1 -> wls <> [] -> (forall wl, In wl wls -> exists n, idx wl = Fin n /\ 0 < n) -> let gl := Refractor idx in
  forall P, built asort (equilateral_prism 2 2 gl) P ->
  exists h s g bx t, P s /\ erase s = prism_tree 2 2 gl /\ tree_ok s /\ boxes_current s /\ surf_ok g /\ s_prim g = PSphere 9 /\ s_world g = mid /\ s_mat g = Absorber /\
  boxes_current (Leaf g bx) /\ new_tracer h [9%nat] [5; 0]%nat 1 10 = Some t /\ proper (colours e f wls) h t [s; Leaf g bx].
Proof.
  intros asort AS idx e f wls UN NN IDX gl P BP.
  assert (BE : built asort (equilateral_prism 2 2 gl) (fun s => erase s = prism_tree 2 2 gl)) by (apply prism_built; auto).
  destruct (built_both _ _ _ _ BP BE) as (prog & l & E & B). clear BP BE.
  assert (EP : prog = prism_calls gl /\ l = 4%nat).
  { unfold prism_calls. rewrite E. split; [reflexivity|]. unfold equilateral_prism in E. cbv zeta in E. injection E as _ <-. reflexivity. }
  destruct EP as (-> & ->). clear E.
  assert (TS : track ball_calls [] = Some [Some (TLeaf (PSphere 9) Absorber mid 1)]) by reflexivity.
  destruct (track_sound asort ball_calls empty_heap 0 [] _ (nice_empty asort) (tracked_start empty_heap) TS) as (h0 & R0 & N0 & T0).
  assert (L0 : length (h_objs h0) = 1%nat) by exact (proj1 T0).
  destruct (B h0 N0) as (h & s & R & Sh & TO & BC & PS & ES). rewrite L0 in R, Sh. change (1 + 4)%nat with 5%nat in Sh.
  assert (RA : run_prog asort (ball_calls ++ map (shift 1) (prism_calls gl)) empty_heap = Ok h).
  { rewrite run_prog_app. change (map (shift 0) ball_calls) with ball_calls in R0. rewrite R0. exact R. }
  destruct (track_sound asort (map (shift 1) (prism_calls gl)) h0 0 _ _ N0 T0 eq_refl) as (h' & R' & N' & T').
  assert (h' = h) by (rewrite map_map in R'; change (map (fun x => shift 0 (shift 1 x)) (prism_calls gl)) with (map (shift 1) (prism_calls gl)) in R'; congruence). subst h'.
  destruct T' as (_ & LS & HL).
  destruct (HL 0%nat _ eq_refl) as (H0 & D0 & _ & AP). destruct (HL 5%nat _ eq_refl) as (H5 & D5 & _ & _).
  specialize (AP 5%nat _ ltac:(discriminate) eq_refl). rewrite Nat.add_0_l in H0, H5.
  assert (Sb : exists b, shape_of h 0%nat = Some b).
  { inversion H0 as [l o p m G K|]; subst. unfold shape_of. replace (depth h) with (S (pred (depth h))) by (unfold depth; lia). cbn [shape_fuel]. rewrite G, K. eauto. }
  destruct Sb as (b & Sb).
  pose proof (holds_shape _ _ _ _ H0 _ _ Sb) as EB.
  destruct b as [g bx|]; [|discriminate]. cbn [erase] in EB. injection EB as EP EM EW _. 
  pose proof (nice_wf _ _ N') as WF.
  destruct (new_tracer h [9%nat] [5; 0]%nat 1 10) as [t|] eqn:NW.
  2:{ exfalso. unfold new_tracer in NW. cbn [map collect] in NW. unfold shape_of in Sh, Sb. destruct (shape_lut _ _ _ _ Sh) as (l5 & L5 & _). destruct (shape_lut _ _ _ _ Sb) as (l0 & L0' & _). unfold lut_of in NW. rewrite L5, L0' in NW. discriminate. }
  assert (PRO : proper (colours e f wls) h t [s; Leaf g bx]).
  { destruct (new_tracer_table _ _ _ _ _ _ NW) as (TC & EC & ESo & EN & EL).
    destruct (program_proper asort (colours e f wls) _ [] h h _ _ _ _ t t RA NW) as (comps & PR); auto.
    + cbn [flat_map]. rewrite (holds_parts _ _ _ _ WF H5), (holds_parts _ _ _ _ WF H0), app_nil_r. apply nodup_append; auto. intros x I5 I0. eapply AP; eauto.
    + rewrite EL. lia.
    + rewrite ESo. discriminate.
    + intros c I. unfold source_rays in I. rewrite ESo, EN in I. cbn [map concat] in I. rewrite app_nil_r in I. apply in_map_iff in I. destruct I as (wl & <- & _). split; [|reflexivity].
      unfold ray_ok, ray_in; cbn [c_ray flat_ray origin direction vw c_idx]. do 2 (split; [reflexivity|]). split; [left|lra]. unfold unit, vdot; cbn [vx vy vz vw]. lra.
    + rewrite app_nil_r. unfold ball_calls, prism_calls, equilateral_prism. cbv zeta. cbn [map shift app]. repeat constructor; cbn [fit_call prim_ok capped optical from_sides]; try lra; auto;
        try (split; [lra|split; [auto|]]); try (intros wl (c & I & <-); apply IDX; revert I; unfold source_rays; rewrite ESo, EN; cbn [map concat]; rewrite app_nil_r; intro I; apply in_map_iff in I; destruct I as (wl & <- & I); exact I).
    + assert (EQ : comps = [s; Leaf g bx]); [|subst; exact PR]. destruct PR as ((SH & _) & _). rewrite EC in SH. cbn [map] in SH. rewrite Sh, Sb in SH.
      destruct comps as [|c1 [|c2 [|c3 cs]]]; cbn in SH; try discriminate. injection SH as <- <-. reflexivity. }
  exists h, s, g, bx, t. do 4 (split; [assumption|]).
  assert (GO : surf_ok g). { destruct PRO as (_ & _ & _ & _ & PO). destruct (PO g) as (A1 & A2 & A3 & _); [cbn [flat_map surface_ids]; apply in_app_iff; right; left; reflexivity|]. split; auto. }
  do 4 (split; [assumption|]). split; [|split; [exact NW|exact PRO]].
  unfold shape_of in Sb. apply (shape_boxes_current asort AS h) with (n := depth h) (l := 0%nat); auto.
  - apply (run_prog_good _ _ _ _ empty_good RA).
  - assert (KP : parts_upto (depth h) h 0%nat = [0%nat] /\ exists o p m, get h 0%nat = Some o /\ o_kind o = KSurf p m).
    { inversion H0 as [l o p m G K|]; subst. split; [|exists o; eauto]. unfold depth. cbn [parts_upto]. rewrite G, K. destruct (length (h_objs h)); reflexivity. }
    destruct KP as (-> & o & p & m & G & K). intros x [<- | []] o' op a b G' K'. congruence.
Qed.

(** The next row of a ray that neither ended at the limit nor was absorbed *)
Lemma advance : forall asort, argsort_ok asort -> forall gen h t comps fuel t' i j w f, proper gen h t comps -> trace asort h gen fuel t = TOk t' ->
  nth_error (rows_with_id i (f_rows (get_results t'))) j = Some w -> Z.of_nat (S (row_gen w)) <> t_limit t ->
  In f (flat_map surface_ids comps) -> s_id f = row_surf w -> s_mat f <> Absorber ->
  (forall w', follows w w' -> SpecTrace.bounce (flat_map surface_ids comps) w w' -> unit (row_tilt w') -> vw (row_tilt w') = 0 ->
    exists q sid, first_hit asort comps (Ray (here (row_start w')) (row_tilt w')) q sid) ->
  exists w', nth_error (rows_with_id i (f_rows (get_results t'))) (S j) = Some w' /\ follows w w' /\
    SpecTrace.bounce (flat_map surface_ids comps) w w' /\ leg asort comps w' /\ row_wl w' = row_wl w.
Proof.
  intros asort AS gen h t comps fuel t' i j w f PRO T J LIM IF ID MA NEXT.
  destruct (proper_bounces asort AS _ _ _ _ _ _ PRO T i _ eq_refl) as (_ & B & O).
  destruct (proper_legs asort AS _ _ _ _ _ _ PRO T) as (L & F).
  destruct (nth_error (rows_with_id i (f_rows (get_results t'))) (S j)) as [w'|] eqn:J'.
  - exists w'. split; auto. split; [exact (F _ _ _ _ J J')|]. split; [exact (B _ _ _ J J')|].
    assert (I : In w (f_rows (get_results t')) /\ row_id w = i) by (apply in_rows_with_id; eapply nth_error_In; eauto).
    assert (I' : In w' (f_rows (get_results t')) /\ row_id w' = i) by (apply in_rows_with_id; eapply nth_error_In; eauto).
    split; [apply L; tauto|].
    destruct (fields_carried _ _ _ _ _ _ T w (proj1 I)) as (c & C1 & C2 & _). destruct (fields_carried _ _ _ _ _ _ T w' (proj1 I')) as (c' & C1' & C2' & _).
    destruct I as (_ & I), I' as (_ & I'). rewrite I in C1. rewrite I', C1 in C1'. injection C1' as <-. congruence.
  - exfalso. destruct (O _ _ J J') as [X|[(s & I & E & M)|(w' & FO & BO & U & D & N)]]; [contradiction| |].
    + pose proof PRO as ((_ & _ & ND) & _). assert (s = f) by (apply (same_surface (flat_map surface_ids comps)); auto; congruence). subst s. contradiction.
    + destruct (NEXT w' FO BO U D) as (q & sid & a & b & R & _). apply (N _ _ _ _ R).
Qed.
Lemma leg_end : forall asort comps w r q sid, leg asort comps w -> Ray (here (row_start w)) (row_tilt w) = r -> first_hit asort comps r q sid ->
  row_surf w = sid /\ here (row_end w) = ray_at r q.
Proof.
  intros asort comps w r q sid (U & D & x & X & E & H) <- F.
  destruct (first_hit_unique _ _ _ _ _ _ _ H F) as (-> & ->). split; auto. rewrite E.
  destruct (row_start w) as [a b c d], (row_tilt w) as [a' b' c' d']. cbn [vw] in D. subst d'.
  unfold here, vset_w, ray_at, vadd, vscale; cbn [origin direction vx vy vz vw]. f_equal; ring.
Qed.
Lemma id_iso : isometry mid.
Proof. apply iso_mid. Qed.
Lemma mid_at : forall v, mapply mid v = v.
Proof. exact mapply_mid. Qed.
Lemma moved_mid : forall l, (forall f, In f l -> surf_ok f) -> Forall2 (moved_surf mid) l l.
Proof.
  induction l as [|f l IH]; intros H; constructor.
  - unfold moved_surf. rewrite mmul_mid_l. repeat split; auto; apply (H f); left; auto.
  - apply IH. intros g I. apply H. right. exact I.
Qed.
