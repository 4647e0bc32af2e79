(** * FocusExamples: the bench of examples/convex_collimator.py *)
From Coq Require Import Reals List Bool ZArith Lra Lia Psatz Permutation.
Import ListNotations.
From Verif Require Import XR XRFacts Arr Lin LinFacts Prim Csg CsgProps Surf SpecGeom SpecTree BoxFacts PrimFacts World SpecWorld WorldFacts WorldFacts3 WorldFacts5 WorldFacts4 BuildFacts Components SpecComponents
  ComponentFacts ComponentFacts2 ComponentOptics Tracer SpecTrace TraceFacts4 TraceFacts8 TraceProps SpecOptics SpecSymmetry SymmetryComponents SymmetryExamples Utils SpecUtils SpecGauss LensAxis GaussProps GaussExamples
  SpecTrain LensKinds TrainFacts TrainProps TrainExamples FrameProps.
Open Scope R_scope.

(** biconvex_lens(2, 2, 0.25, aperture=1); the default material has the index 1.5.  The move by 0 is not in the script. *)
Definition coll_lens : lens := Lens (BiconvexLens 2 2 (1 / 4)) (Round 1) (glass Ideal) 0.
(** baffle((1, 1)).move_x(1) *)
Definition coll_screen : list call := [CSurface (PPlane 1 1) Absorber; CMotion 0 (RotY 90 Deg); CMotion 0 (op_move_x 1)].
Definition coll_calls : list call :=
  [CSurface (PCylinder (1 / 2) (- (1 / 4) / 2) (1 / 4 / 2) true) (glass_material Ideal);
   CSurface (PSphere 2) (glass_material Ideal); CMotion 1 (op_move_z (2 - 1 / 4 / 2));
   CSurface (PSphere 2) (glass_material Ideal); CMotion 2 (op_move_z (- (2 - 1 / 4 / 2)));
   CCsg INTERSECT 1 2; CCsg INTERSECT 3 0; CMotion 4 (RotY 90 Deg); CMotion 4 (RotX 90 Deg); CMotion 4 (op_move_x 0)].
Lemma coll_program : lens_call coll_lens = Makes coll_calls 4.
Proof. reflexivity. Qed.
Lemma coll_same : rltb 2 2 = false.
Proof. apply rltb_false. lra. Qed.
Lemma coll_ok : lens_ok coll_lens.
Proof.
  split; [unfold ap_ok; cbn; lra|]. split; [exact I|]. unfold l_t; cbn [l_by coll_lens]. rewrite coll_same. repeat split; lra.
Qed.
Lemma coll_shape : l_r1 coll_lens = Fin 2 /\ l_r2 coll_lens = Fin (- (2)) /\ l_t coll_lens = 1 / 4 - (2 - 2) /\ front_of coll_lens = 0 - 1 / 4 / 2 + (2 - 2) /\ back_of coll_lens = 0 + 1 / 4 / 2.
Proof. unfold l_r1, l_r2, l_t, front_of, back_of; cbn [l_by l_at coll_lens]. rewrite coll_same. repeat split; reflexivity. Qed.
(** The focal length that the script computes *)
Lemma coll_focus : lensmakers_equation (Fin 2) (Fin (- (2))) (Fin (3 / 2)) (Fin (1 / 4)) = Some (Fin (96 / 47)).
Proof.
  destruct (UtilProps.lensmaker_paraxial (Fin 2) (Fin (- (2))) (3 / 2) (1 / 4) (/ 2) (/ - (2))) as (F & _); [cbn; split; [lra|reflexivity]..|lra|].
  destruct F as (f & E & F).
  - unfold lens_matrix, cross, travel, m2_mul; cbn [mA mB mC mD]. replace (/ - (2)) with (- / 2) by field. apply Rlt_not_eq. lra.
  - rewrite E. do 2 f_equal. unfold lens_matrix, cross, travel, m2_mul in F; cbn [mA mB mC mD] in F. replace (/ - (2)) with (- / 2) in F by field. lra.
Qed.
(** One ray of a cone from the axis at [x]: slope [y] in the direction of y *)
Definition from_axis (x y : R) (s : loc) (n : nat) : list col := [Col (sloped 1 0 x (0 * y) (1 * y)) 0 100 (633 / 1000) 1 0].
Lemma sloped_unit : forall ey ez x h u, ey * ey + ez * ez = 1 -> unit (direction (sloped ey ez x h u)).
Proof.
  intros ey ez x h u E. unfold sloped, meridional, unit, vdot. cbn [direction vx vy vz vw].
  assert (SP : 0 < sqrt (1 + u * u)) by (apply sqrt_lt_R0; nra). assert (Q : sqrt (1 + u * u) * sqrt (1 + u * u) = 1 + u * u) by (apply sqrt_sqrt; nra).
  set (s := sqrt (1 + u * u)) in *. clearbody s. transitivity ((1 + u * u * (ey * ey + ez * ez)) / (s * s)); [field; lra|]. rewrite E, Q. field. nra.
Qed.
(** The screen, then the lens *)
Definition coll_bench : list call := coll_screen ++ map (shift 1) coll_calls.
Lemma coll_scene : forall asort, argsort_ok asort ->
  exists h s b, run_prog asort coll_bench empty_heap = Ok h /\ shape_of h 5%nat = Some s /\ shape_of h 0%nat = Some b /\
  made asort (lens_call coll_lens) s /\ screen_at 1 b /\
  forall x y, exists t, new_tracer h [9%nat] [5; 0]%nat 1 100 = Some t /\ proper (from_axis x y) h t [s; b].
Proof.
  intros asort AS.
  assert (BU : exists P, built asort (lens_call coll_lens) P).
  { destruct coll_ok as (A & CL & R1 & R2 & _). destruct (biconvex_placed asort 2 2 (1 / 4) (Round 1) (glass_material Ideal) 0 AS A ltac:(lra) R1 R2) as (p & _ & B). eexists. exact B. }
  assert (TS : track coll_screen [] = Some [Some (TLeaf (PPlane 1 1) Absorber (mmul (mmove 1 0 0) (mmul ry90 mid)) 1)]).
  { destruct rot_quarter as (_ & QY & _). unfold coll_screen. cbn [track track_call prim_init app nth_error]. rewrite QY. reflexivity. }
  destruct (track_sound asort coll_screen empty_heap 0 [] _ (nice_empty asort) (tracked_start empty_heap) TS) as (h0 & R0 & N0 & T0).
  change (map (shift 0) coll_screen) with coll_screen in R0.
  assert (L0 : length (h_objs h0) = 1%nat) by exact (proj1 T0).
  destruct (track_sound asort (map (shift 1) coll_calls) h0 0 _ _ N0 T0 eq_refl) as (h & R1 & N1 & T1).
  rewrite map_map in R1. change (map (fun x => shift 0 (shift 1 x)) coll_calls) with (map (shift 1) coll_calls) in R1.
  destruct BU as (P1 & prog1 & l1 & E1 & B1). rewrite coll_program in E1. injection E1 as <- <-. destruct (B1 h0 N0) as (h1' & s & R1' & S1 & _). rewrite L0 in R1', S1.
  rewrite R1 in R1'. injection R1' as <-. change (1 + 4)%nat with 5%nat in S1.
  assert (RA : run_prog asort coll_bench empty_heap = Ok h) by (unfold coll_bench; rewrite run_prog_app, R0; exact R1).
  assert (M1 : made asort (lens_call coll_lens) s).
  { exists coll_calls, 4%nat, h0, h. rewrite L0. split; [apply coll_program|]. split; [exact N0|]. split; [exact R1|exact S1]. }
  destruct T1 as (_ & LS & HL).
  destruct (HL 0%nat _ eq_refl) as (H0 & D0 & _ & A0). destruct (HL 5%nat _ eq_refl) as (H5 & D5 & _ & A5).
  pose proof (A0 5%nat _ ltac:(discriminate) eq_refl) as AP05. rewrite Nat.add_0_l in H0, H5.
  assert (Sb : exists b, shape_of h 0%nat = Some b).
  { inversion H0 as [l o p m G K|]; subst. unfold shape_of. replace (depth h) with (S (pred (depth h))) by (unfold depth; lia). cbn [shape_fuel]. rewrite G, K. eauto. }
  destruct Sb as (b & Sb). exists h, s, b. do 4 (split; [assumption|]).
  pose proof (holds_shape _ _ _ _ H0 _ _ Sb) as EB. split.
  - destruct b as [g bx|]; [|discriminate]. cbn [erase] in EB. injection EB as EP EM EW _. exists g, bx, 1, 1. split; [reflexivity|]. split; [exact EP|]. do 2 (split; [lra|]). split; [exact EM|].
    rewrite EW. rewrite mmul_mid_r. apply mat_ext. intros [a c e f]. unfold mmul, mapply, vdot, mmove, ry90; cbn. f_equal; ring.
  - intros x0 y. pose proof (nice_wf _ _ N1) as WF.
    destruct (new_tracer h [9%nat] [5; 0]%nat 1 100) as [t|] eqn:NW.
    2:{ exfalso. unfold new_tracer in NW. cbn [map collect] in NW. unfold shape_of in S1, Sb. destruct (shape_lut _ _ _ _ S1) as (l5 & L5 & _). destruct (shape_lut _ _ _ _ Sb) as (l0 & L0' & _). unfold lut_of in NW. rewrite L5, L0' in NW. discriminate. }
    exists t. split; [reflexivity|]. destruct (new_tracer_table _ _ _ _ _ _ NW) as (TC & EC & ES & EN & EL).
    destruct (program_proper asort (from_axis x0 y) _ [] h h _ _ _ _ t t RA NW) as (comps & PR); auto.
    + cbn [flat_map]. rewrite (holds_parts _ _ _ _ WF H5), (holds_parts _ _ _ _ WF H0), app_nil_r. apply nodup_append; auto. intros x I5 I0. eapply AP05; eauto.
    + rewrite EL. lia.
    + rewrite ES. discriminate.
    + intros c I. unfold source_rays in I. rewrite ES, EN in I. cbn [map concat app from_axis] in I. destruct I as [<-|[]]. split; [|reflexivity].
      unfold ray_ok; cbn [c_ray c_idx]. split; [reflexivity|]. split; [reflexivity|]. split; [left; apply sloped_unit; ring|lra].
    + rewrite app_nil_r. unfold coll_bench, coll_screen, coll_calls. cbn [map shift app]. repeat constructor; cbn [fit_call prim_ok capped optical glass_material]; try lra; auto;
        try (split; [lra|split; [auto|]]); try (intros wl _; exists (15 / 10); split; [reflexivity|lra]).
    + assert (EQ : comps = [s; b]); [|subst; exact PR]. destruct PR as ((SH & _) & _). rewrite EC in SH. cbn [map] in SH. rewrite S1, Sb in SH.
      destruct comps as [|c1 [|c2 [|c3 cs]]]; cbn in SH; try discriminate. injection SH as <- <-. reflexivity.
Qed.
