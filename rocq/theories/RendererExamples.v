(** * RendererExamples: a renderer that has been used *)
From Coq Require Import Reals List Bool ZArith Lra Lia.
Import ListNotations.
From Verif Require Import XR XRFacts Arr Lin LinFacts Prim Csg CsgProps Surf World SpecWorld WorldExamples Tracer TraceFacts8 TraceExamples WorldFacts4
  Sources SpecOptics Render RenderFacts RenderFacts2 RenderProps RenderExamples Renderers SpecShow RendererProps.
Open Scope R_scope.

Lemma moved_bench : forall asort, exists h0 h s, run_prog asort bench_calls empty_heap = Ok h0 /\
  lut_of h0 2%nat = Some [(2%Z, 2%nat)] /\ shape_of h0 2%nat = Some (standing (-2) (sheet 2 (-2) Absorber)) /\
  run_catching asort [CMotion 2%nat (Move 1 0 0)] h0 = Some h /\ shape_of h 2%nat = Some s.
Proof.
  intros asort. assert (B : exists h, run_prog asort (bench_calls ++ [CMotion 2%nat (Move 1 0 0)]) empty_heap = Ok h /\ exists s, shape_of h 2%nat = Some s).
  { eexists. split; [unfold bench_calls, square; cbn [app]; go; reflexivity|]. eexists. reflexivity. }
  destruct B as (h & B & s & S). destruct (bench asort) as (h0 & R & _ & _ & S2 & _ & _ & _ & L & _).
  exists h0, h, s. split; auto. split; auto. split; auto. split; auto.
  rewrite run_prog_app, R in B. apply run_prog_catching. exact B.
Qed.
Lemma used_renderer : forall asort gooch_of light, argsort_ok asort -> exists h0 r0 r h s,
  run_prog asort bench_calls empty_heap = Ok h0 /\ new_renderer h0 (ShadedKind light) [2%nat] = Some r0 /\
  used asort gooch_of r0 r /\ rn_results r <> None /\
  run_catching asort [CMotion 2%nat (Move 1 0 0)] h0 = Some h /\ map (shape_of h) [2%nat] = [Some s].
Proof.
  intros asort gooch_of light AS. destruct (moved_bench asort) as (h0 & h & s & R & L & S0 & C & S).
  assert (N : exists r0, new_renderer h0 (ShadedKind light) [2%nat] = Some r0).
  { unfold new_renderer. cbn [map collect]. rewrite L. eauto. }
  destruct N as (r0 & N).
  pose proof (renderer_draws asort gooch_of h0 (ShadedKind light) [2%nat] r0 r0 [] h0 (Camera 3 2 1 mid) [standing (-2) (sheet 2 (-2) Absorber)] 4
    N (used_not _ _ _) eq_refl) as X. cbn [map] in X. rewrite S0 in X. specialize (X eq_refl ltac:(lia)).
  assert (K : exists rays, cam_rays (Camera 3 2 1 mid) = Some rays).
  { destruct (camera_grid (Camera 3 2 1 mid) (V4 1 0 0 0)) as (rays & E & _); eauto.
    - unfold cam_v_pixels. cbn [cam_aspect cam_h_pixels]. rewrite Rmult_1_l, int_trunc_INR. lia.
    - cbn [cam_world]. rewrite mapply_mid. apply vnormalize_unit. unfold vdot; cbn; ring. }
  destruct K as (rays & K). cbn [picture_of] in X. unfold shaded_image in X. rewrite K in X. destruct X as (r & X & Y).
  exists h0, r0, r, h, s. split; auto. split; auto. split; [eapply used_render; [apply used_not|exact X]|].
  split; [rewrite Y; discriminate|]. split; auto. cbn [map]. rewrite S. auto.
Qed.
