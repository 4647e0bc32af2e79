(** * ChromaExamples: a lens of BK7, a screen, and a blue and a red ray side by side *)
From Coq Require Import Reals List Bool ZArith Lra Lia Psatz.
Import ListNotations.
From Verif Require Import XR XRFacts Arr Lin LinFacts Prim Csg CsgProps Surf SpecGeom SpecTree BoxFacts PrimFacts World SpecWorld WorldFacts WorldFacts3 WorldFacts5 WorldFacts4 BuildFacts Components SpecComponents
  ComponentFacts ComponentFacts2 ComponentOptics Tracer SpecTrace TraceFacts4 TraceFacts8 TraceProps SpecOptics SymmetryComponents SymmetryExamples Utils SpecUtils UtilProps SpecGauss LensAxis GaussProps GaussExamples.
Open Scope R_scope.

(** a blue and a red ray parallel to the axis, both [y] above it *)
Definition two_rays (y : R) (s : loc) (n : nat) : list col :=
  [Col (Ray (V4 (-5) (y * 1) (y * 0) 1) (V4 1 0 0 0)) 0 100 (45 / 100) 1 0; Col (Ray (V4 (-5) (y * 1) (y * 0) 1) (V4 1 0 0 0)) 0 100 (65 / 100) 1 1].
Lemma seen_by_lens : forall w, visible w -> exists n, glass BK7 w = Fin n /\ 0 < n.
Proof. intros w V. destruct (catalogue_visible BK7 w V) as (n & E & P). exists n. split; [exact E|lra]. Qed.
(** components.thick_lens(10, -10, 1, aperture=2, material=glass['BK7']) *)
Definition bk7_calls : list call :=
  [CSurface (PCylinder 1 (- (1) / 2) (1 / 2) true) (glass_material BK7); CMotion 0 (op_move_z 0);
   CSurface (PSphere 10) (glass_material BK7); CMotion 1 (op_move_z (10 - 1 / 2)); CCsg INTERSECT 0 1;
   CSurface (PSphere (-10)) (glass_material BK7); CMotion 3 (op_move_z (-10 + 1 / 2)); CCsg INTERSECT 2 3;
   CMotion 4 (RotY 90 Deg); CMotion 4 (RotX 90 Deg)].
Lemma bk7_program : thick_lens (Fin 10) (Fin (-10)) 1 (Round 2) (glass_material BK7) = Makes bk7_calls 4.
Proof.
  destruct lens_sizes as (A & _ & R1 & R2 & _). unfold thick_lens. rewrite full_thickness by assumption.
  cbn [front_depth back_depth lens_side fst snd].
  assert (L1 : rltb 0 10 = true) by (apply rltb_true; lra). assert (L2 : rltb (-10) 0 = true) by (apply rltb_true; lra).
  assert (L3 : rltb 10 0 = false) by (apply rltb_false; lra). assert (L4 : rltb 0 (-10) = false) by (apply rltb_false; lra).
  rewrite L1, L2, L3, L4. unfold create_aperture. cbn [turned fst snd app]. unfold bk7_calls.
  replace (1 / 2 + 0 + (1 / 2 + 0)) with 1 by field. replace ((1 / 2 + 0 - (1 / 2 + 0)) / 2) with 0 by field. replace (2 / 2) with 1 by field. reflexivity.
Qed.

Lemma bk7_scene : forall asort, argsort_ok asort -> forall P, built asort (thick_lens (Fin 10) (Fin (-10)) 1 (Round 2) (glass_material BK7)) P ->
  exists h s b, run_prog asort (screen_calls ++ map (shift 1) bk7_calls) empty_heap = Ok h /\
  shape_of h 5%nat = Some s /\ shape_of h 0%nat = Some b /\ P s /\ screen_at 20 b /\
  forall y, exists t, new_tracer h [9%nat] [5; 0]%nat 1 10 = Some t /\ proper (two_rays y) h t [s; b].
Proof.
  intros asort AS P (prog & l & E & B). rewrite bk7_program in E. injection E as <- <-.
  assert (TS : track screen_calls [] = Some [Some (TLeaf (PPlane 4 4) Absorber (mmul (mmove 20 0 0) (mmul ry90 mid)) 1)]).
  { destruct rot_quarter as (_ & QY & _). unfold screen_calls. cbn [track track_call prim_init app nth_error]. rewrite QY. reflexivity. }
  destruct (track_sound asort screen_calls empty_heap 0 [] _ (nice_empty asort) (tracked_start empty_heap) TS) as (h0 & R0 & N0 & T0).
  assert (L0 : length (h_objs h0) = 1%nat) by exact (proj1 T0).
  destruct (B h0 N0) as (h & s & R & Sh & TO & BC & PS). rewrite L0 in R, Sh. change (1 + 4)%nat with 5%nat in Sh.
  assert (RA : run_prog asort (screen_calls ++ map (shift 1) bk7_calls) empty_heap = Ok h).
  { rewrite run_prog_app. change (map (shift 0) screen_calls) with screen_calls in R0. rewrite R0. exact R. }
  destruct (track_sound asort (map (shift 1) bk7_calls) h0 0 _ _ N0 T0 eq_refl) as (h' & R' & N' & T').
  assert (h' = h) by (rewrite map_map in R'; change (map (fun x => shift 0 (shift 1 x)) bk7_calls) with (map (shift 1) bk7_calls) in R'; congruence). subst h'.
  destruct T' as (_ & LS & HL).
  destruct (HL 0%nat _ eq_refl) as (H0 & D0 & _ & AP). destruct (HL 5%nat _ eq_refl) as (H5 & D5 & _ & _).
  specialize (AP 5%nat _ ltac:(discriminate) eq_refl). rewrite Nat.add_0_l in H0, H5.
  assert (Sb : exists b, shape_of h 0%nat = Some b).
  { inversion H0 as [l o p m G K|]; subst. unfold shape_of. replace (depth h) with (S (pred (depth h))) by (unfold depth; lia). cbn [shape_fuel]. rewrite G, K. eauto. }
  destruct Sb as (b & Sb). exists h, s, b. do 4 (split; [assumption|]).
  pose proof (holds_shape _ _ _ _ H0 _ _ Sb) as EB. split.
  - destruct b as [g bx|]; [|discriminate]. cbn [erase] in EB. injection EB as EP EM EW _. exists g, bx, 4, 4. split; [reflexivity|]. split; [exact EP|]. do 2 (split; [lra|]). split; [exact EM|].
    rewrite EW. rewrite mmul_mid_r. apply mat_ext. intros [a c e f]. unfold mmul, mapply, vdot, mmove, ry90; cbn. f_equal; ring.
  - intro y. pose proof (nice_wf _ _ N') as WF.
    destruct (new_tracer h [9%nat] [5; 0]%nat 1 10) as [t|] eqn:NW.
    2:{ exfalso. unfold new_tracer in NW. cbn [map collect] in NW. unfold shape_of in Sh, Sb. destruct (shape_lut _ _ _ _ Sh) as (l5 & L5 & _). destruct (shape_lut _ _ _ _ Sb) as (l0 & L0' & _). unfold lut_of in NW. rewrite L5, L0' in NW. discriminate. }
    exists t. split; [reflexivity|]. destruct (new_tracer_table _ _ _ _ _ _ NW) as (TC & EC & ES & EN & EL).
    destruct (program_proper asort (two_rays y) _ [] h h _ _ _ _ t t RA NW) as (comps & PR); auto.
    + cbn [flat_map]. rewrite (holds_parts _ _ _ _ WF H5), (holds_parts _ _ _ _ WF H0), app_nil_r. apply nodup_append; auto. intros x I5 I0. eapply AP; eauto.
    + rewrite EL. lia.
    + rewrite ES. discriminate.
    + intros c I. unfold source_rays in I. rewrite ES, EN in I. cbn in I. destruct I as [<-|[<-|[]]]; (split; [|reflexivity]);
      (unfold ray_ok; cbn [c_ray origin direction vw c_idx]; do 2 (split; [reflexivity|]); split; [left|lra]; unfold unit, vdot; cbn [vx vy vz vw]; ring).
    + rewrite app_nil_r. unfold screen_calls, bk7_calls. cbn [map shift app]. repeat constructor; cbn [fit_call prim_ok capped optical glass_material]; try lra; auto;
        try (split; [lra|split; [auto|]]); try (intros wl (c & I & <-); apply seen_by_lens; unfold source_rays in I; rewrite ES, EN in I; cbn in I; destruct I as [<-|[<-|[]]]; cbn; unfold visible; lra).
    + assert (EQ : comps = [s; b]); [|subst; exact PR]. destruct PR as ((SH & _) & _). rewrite EC in SH. cbn [map] in SH. rewrite Sh, Sb in SH.
      destruct comps as [|c1 [|c2 [|c3 cs]]]; cbn in SH; try discriminate. injection SH as <- <-. reflexivity.
Qed.
