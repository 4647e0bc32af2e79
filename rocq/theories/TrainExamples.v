(** * TrainExamples: two lenses and a screen on one bench *)
From Coq Require Import Reals List Bool ZArith Lra Lia Psatz Permutation.
Import ListNotations.
From Verif Require Import XR XRFacts Arr Lin LinFacts Prim Csg CsgProps Surf SpecGeom SpecTree BoxFacts PrimFacts World SpecWorld WorldFacts WorldFacts3 WorldFacts5 WorldFacts4 BuildFacts Components SpecComponents
  ComponentFacts ComponentFacts2 ComponentOptics Tracer SpecTrace TraceFacts4 TraceFacts8 TraceProps SpecOptics SpecSymmetry SymmetryComponents SymmetryExamples SpecUtils SpecGauss LensAxis GaussProps GaussExamples
  SpecTrain TrainFacts TrainProps FrameProps.
Open Scope R_scope.

(** components.thick_lens(10, -10, 1, aperture=2, material=crown).move_x(at) *)
Definition crown_lens (at_x : R) : lens := Lens (ThickLens (Fin 10) (Fin (-10)) 1) (Round 2) (fun _ => Fin (3 / 2)) at_x.
Definition crown_calls (at_x : R) : list call := lens_calls ++ [CMotion 4 (op_move_x at_x)].
Lemma crown_program : forall x, lens_call (crown_lens x) = Makes (crown_calls x) 4.
Proof. intro x. unfold lens_call; cbn [l_by l_ap l_index l_at crown_lens]. change (Refractor (fun _ => Fin (3 / 2))) with crown. rewrite lens_program. reflexivity. Qed.
Lemma crown_ok : forall x, lens_ok (crown_lens x).
Proof. intro x. exact lens_sizes. Qed.
Lemma two_in_line : in_line (-5) [crown_lens 0; crown_lens 3] 20.
Proof. cbn [in_line]. unfold front_of, back_of, crown_lens, ray_offset_value; cbn [l_at l_by]. repeat split; lra. Qed.
Definition two_matrix : m2 :=
  m2_mul (m2_mul (travel (20 - (3 + 1 / 2))) (m2_mul (lens_matrix (/ 10) (/ -10) (3 / 2) 1) (travel (3 - 1 / 2 - (0 + 1 / 2)))))
    (m2_mul (lens_matrix (/ 10) (/ -10) (3 / 2) 1) (travel (0 - 1 / 2 - -5))).
Lemma two_gaussian : forall wl, gaussian wl 20 (-5) [crown_lens 0; crown_lens 3] two_matrix [1; 3 / 2; 1; 3 / 2; 1].
Proof.
  intro wl. apply (G_lens wl 20 (-5) (crown_lens 0) [crown_lens 3] (/ 10) (/ -10) (3 / 2) _ [1; 3 / 2; 1]); [cbn; split; [lra|reflexivity]..|reflexivity|lra|].
  apply (G_lens wl 20 (back_of (crown_lens 0)) (crown_lens 3) [] (/ 10) (/ -10) (3 / 2) _ [1]); [cbn; split; [lra|reflexivity]..|reflexivity|lra|].
  apply G_air.
Qed.
Lemma two_height : height_of two_matrix 1 0 = - (770027 / 360000).
Proof. unfold height_of, two_matrix, lens_matrix, cross, travel, m2_mul; cbn [mA mB mC mD]. lra. Qed.
(** An object point whose image lies on the screen *)
Definition object_at : R := - 5 - 3407237 / 1540054.
Definition image_matrix : m2 :=
  m2_mul (m2_mul (travel (20 - (3 + 1 / 2))) (m2_mul (lens_matrix (/ 10) (/ -10) (3 / 2) 1) (travel (3 - 1 / 2 - (0 + 1 / 2)))))
    (m2_mul (lens_matrix (/ 10) (/ -10) (3 / 2) 1) (travel (0 - 1 / 2 - object_at))).
Lemma image_gaussian : forall wl, in_line object_at [crown_lens 0; crown_lens 3] 20 /\ gaussian wl 20 object_at [crown_lens 0; crown_lens 3] image_matrix [1; 3 / 2; 1; 3 / 2; 1] /\
  mB image_matrix = 0 /\ mA image_matrix = - (770027 / 360000).
Proof.
  intro wl. split; [cbn [in_line]; unfold front_of, back_of, crown_lens, ray_offset_value, object_at; cbn [l_at l_by]; repeat split; lra|]. split.
  - apply (G_lens wl 20 object_at (crown_lens 0) [crown_lens 3] (/ 10) (/ -10) (3 / 2) _ [1; 3 / 2; 1]); [cbn; split; [lra|reflexivity]..|reflexivity|lra|].
    apply (G_lens wl 20 (back_of (crown_lens 0)) (crown_lens 3) [] (/ 10) (/ -10) (3 / 2) _ [1]); [cbn; split; [lra|reflexivity]..|reflexivity|lra|].
    apply G_air.
  - unfold image_matrix, object_at, lens_matrix, cross, travel, m2_mul; cbn [mA mB mC mD]. split; lra.
Qed.
(** The whole program: the screen, the lens at 0, the lens at 3 *)
Definition bench : list call := screen_calls ++ map (shift 1) (crown_calls 0) ++ map (shift 6) (crown_calls 3).
Lemma two_lens_scene : forall asort, argsort_ok asort ->
  exists h s1 s2 b, run_prog asort bench empty_heap = Ok h /\
  shape_of h 5%nat = Some s1 /\ shape_of h 10%nat = Some s2 /\ shape_of h 0%nat = Some b /\
  made asort (lens_call (crown_lens 0)) s1 /\ made asort (lens_call (crown_lens 3)) s2 /\ screen_at 20 b /\
  forall y, exists t, new_tracer h [9%nat] [5; 10; 0]%nat 1 10 = Some t /\ proper (ray_above y) h t [s1; s2; b].
Proof.
  intros asort AS.
  assert (BU : forall x, exists P, built asort (lens_call (crown_lens x)) P).
  { intro x. destruct (crown_ok x) as (A & CL & FIT). pose proof FIT as (R1 & R2 & T & _).
    destruct (placed_lens_erased asort (Fin 10) (Fin (-10)) 1 (Round 2) crown x AS A ltac:(lra) R1 R2) as (p & _ & B). eexists. exact B. }
  assert (TS : track screen_calls [] = Some [Some (TLeaf (PPlane 4 4) Absorber (mmul (mmove 20 0 0) (mmul ry90 mid)) 1)]).
  { destruct rot_quarter as (_ & QY & _). unfold screen_calls. cbn [track track_call prim_init app nth_error]. rewrite QY. reflexivity. }
  destruct (track_sound asort screen_calls empty_heap 0 [] _ (nice_empty asort) (tracked_start empty_heap) TS) as (h0 & R0 & N0 & T0).
  change (map (shift 0) screen_calls) with screen_calls in R0.
  assert (L0 : length (h_objs h0) = 1%nat) by exact (proj1 T0).
  destruct (track_sound asort (map (shift 1) (crown_calls 0)) h0 0 _ _ N0 T0 eq_refl) as (h1 & R1 & N1 & T1).
  rewrite map_map in R1. change (map (fun x => shift 0 (shift 1 x)) (crown_calls 0)) with (map (shift 1) (crown_calls 0)) in R1.
  assert (L1 : length (h_objs h1) = 6%nat) by exact (proj1 T1).
  destruct (track_sound asort (map (shift 6) (crown_calls 3)) h1 0 _ _ N1 T1 eq_refl) as (h & R2 & N2 & T2).
  rewrite map_map in R2. change (map (fun x => shift 0 (shift 6 x)) (crown_calls 3)) with (map (shift 6) (crown_calls 3)) in R2.
  destruct (BU 0) as (P1 & prog1 & l1 & E1 & B1). rewrite crown_program in E1. injection E1 as <- <-. destruct (B1 h0 N0) as (h1' & s1 & R1' & S1' & _). rewrite L0 in R1', S1'.
  rewrite R1 in R1'. injection R1' as <-. change (1 + 4)%nat with 5%nat in S1'.
  destruct (BU 3) as (P2 & prog2 & l2 & E2 & B2). rewrite crown_program in E2. injection E2 as <- <-. destruct (B2 h1 N1) as (h2' & s2 & R2' & S2 & _). rewrite L1 in R2', S2.
  rewrite R2 in R2'. injection R2' as <-. change (6 + 4)%nat with 10%nat in S2.
  assert (RB : run_prog asort (screen_calls ++ map (shift 1) (crown_calls 0)) empty_heap = Ok h1) by (rewrite run_prog_app, R0; exact R1).
  assert (RA : run_prog asort bench empty_heap = Ok h) by (unfold bench; rewrite app_assoc, run_prog_app, RB; exact R2).
  assert (S1 : shape_of h 5%nat = Some s1).
  { rewrite (later_calls_shape asort _ (map (shift 6) (crown_calls 3)) h1 h RB); [exact S1'| |exact R2|lia].
    intros c l I I'. apply in_map_iff in I. destruct I as (c' & <- & _). rewrite L1. eapply shift_names; exact I'. }
  assert (M1 : made asort (lens_call (crown_lens 0)) s1).
  { exists (crown_calls 0), 4%nat, h0, h1. rewrite L0. split; [apply crown_program|]. split; [exact N0|]. split; [exact R1|exact S1']. }
  assert (M2 : made asort (lens_call (crown_lens 3)) s2).
  { exists (crown_calls 3), 4%nat, h1, h. rewrite L1. split; [apply crown_program|]. split; [exact N1|]. split; [exact R2|exact S2]. }
  destruct T2 as (_ & LS & HL).
  destruct (HL 0%nat _ eq_refl) as (H0 & D0 & _ & A0). destruct (HL 5%nat _ eq_refl) as (H5 & D5 & _ & A5). destruct (HL 10%nat _ eq_refl) as (H10 & D10 & _ & _).
  pose proof (A0 5%nat _ ltac:(discriminate) eq_refl) as AP05. pose proof (A0 10%nat _ ltac:(discriminate) eq_refl) as AP010. pose proof (A5 10%nat _ ltac:(discriminate) eq_refl) as AP510.
  rewrite Nat.add_0_l in H0, H5, H10.
  assert (Sb : exists b, shape_of h 0%nat = Some b).
  { inversion H0 as [l o p m G K|]; subst. unfold shape_of. replace (depth h) with (S (pred (depth h))) by (unfold depth; lia). cbn [shape_fuel]. rewrite G, K. eauto. }
  destruct Sb as (b & Sb). exists h, s1, s2, b. do 6 (split; [assumption|]).
  pose proof (holds_shape _ _ _ _ H0 _ _ Sb) as EB. split.
  - destruct b as [g bx|]; [|discriminate]. cbn [erase] in EB. injection EB as EP EM EW _. exists g, bx, 4, 4. split; [reflexivity|]. split; [exact EP|]. do 2 (split; [lra|]). split; [exact EM|].
    rewrite EW. rewrite mmul_mid_r. apply mat_ext. intros [a c e f]. unfold mmul, mapply, vdot, mmove, ry90; cbn. f_equal; ring.
  - intro y. pose proof (nice_wf _ _ N2) as WF.
    destruct (new_tracer h [9%nat] [5; 10; 0]%nat 1 10) as [t|] eqn:NW.
    2:{ exfalso. unfold new_tracer in NW. cbn [map collect] in NW. unfold shape_of in S1, S2, Sb. destruct (shape_lut _ _ _ _ S1) as (l5 & L5 & _). destruct (shape_lut _ _ _ _ S2) as (l10 & L10 & _). destruct (shape_lut _ _ _ _ Sb) as (l0 & L0' & _). unfold lut_of in NW. rewrite L5, L10, L0' in NW. discriminate. }
    exists t. split; [reflexivity|]. destruct (new_tracer_table _ _ _ _ _ _ NW) as (TC & EC & ES & EN & EL).
    destruct (program_proper asort (ray_above y) _ [] h h _ _ _ _ t t RA NW) as (comps & PR); auto.
    + cbn [flat_map]. rewrite (holds_parts _ _ _ _ WF H5), (holds_parts _ _ _ _ WF H0), (holds_parts _ _ _ _ WF H10), app_nil_r.
      apply nodup_append; [assumption|apply nodup_append; [assumption|assumption|intros x I10 I0; eapply AP010; eauto]|].
      intros x I5 I. apply in_app_or in I. destruct I as [I|I]; [eapply AP510; eauto|eapply AP05; eauto].
    + rewrite EL. lia.
    + rewrite ES. discriminate.
    + intros c I. unfold source_rays in I. rewrite ES, EN in I. cbn in I. destruct I as [<-|[]]. split; [|reflexivity].
      unfold ray_ok; cbn [c_ray origin direction vw c_idx]. do 2 (split; [reflexivity|]). split; [left|lra]. unfold unit, vdot; cbn [vx vy vz vw]. ring.
    + rewrite app_nil_r. unfold bench, screen_calls, crown_calls, lens_calls. cbn [map shift app]. repeat constructor; cbn [fit_call prim_ok capped optical crown]; try lra; auto;
        try (split; [lra|split; [auto|]]); try (intros wl _; exists (3 / 2); split; [reflexivity|lra]).
    + assert (EQ : comps = [s1; s2; b]); [|subst; exact PR]. destruct PR as ((SH & _) & _). rewrite EC in SH. cbn [map] in SH. rewrite S1, S2, Sb in SH.
      destruct comps as [|c1 [|c2 [|c3 [|c4 cs]]]]; cbn in SH; try discriminate. injection SH as <- <- <-. reflexivity.
Qed.
Lemma ray_above_sloped : forall y s n c, In c (ray_above y s n) -> c_ray c = sloped 1 0 (-5) (1 * y) (0 * y).
Proof.
  intros y s n c [<-|[]]. cbn [c_ray]. unfold sloped, meridional. replace (1 + 0 * y * (0 * y)) with 1 by ring. rewrite sqrt_1, Rinv_1. f_equal; f_equal; field.
Qed.
