(** * ImagingProps: a thick lens images points near its axis *)
From Coq Require Import Reals Lra Lia List Bool ZArith Psatz.
Import ListNotations.
From Verif Require Import XR XRFacts Lin Csg CsgProps Prim Surf World Tracer SpecTrace Components SpecComponents BuildFacts ComponentFacts2 Utils SpecUtils UtilProps SpecGauss GaussProps.
Open Scope R_scope.

Lemma lens_focal : forall r1 r2 t n k1 k2 f, curvature r1 k1 -> curvature r2 k2 -> 0 < n -> lensmakers_equation r1 r2 (Fin n) (Fin t) = Some (Fin f) ->
  f * mC (lens_matrix k1 k2 n t) = -1.
Proof.
  intros r1 r2 t n k1 k2 f K1 K2 NP LM. destruct (lensmaker_paraxial r1 r2 n t k1 k2 K1 K2 ltac:(lra)) as (F1 & F2). destruct (Req_dec (mC (lens_matrix k1 k2 n t)) 0) as [Z|Z].
  - rewrite (F2 Z) in LM. discriminate.
  - destruct (F1 Z) as (f' & E' & F'). rewrite LM in E'. injection E' as ->. exact F'.
Qed.
Lemma imaging_algebra : forall a b c d f so si, a * d - b * c = 1 -> f * c = -1 -> so <> 0 -> si <> 0 -> / so + / si = / f ->
  a + (si + f * (a - 1)) * c = - (si / so) /\
  a * (so + f * (d - 1)) + b + (si + f * (a - 1)) * (c * (so + f * (d - 1)) + d) = 0.
Proof.
  intros a b c d f so si DET FC S1 S2 E. assert (F0 : f <> 0) by (intro Z; rewrite Z in FC; lra).
  assert (EC : c = - / f) by (apply (Rmult_eq_reg_l f); [rewrite FC; field|]; assumption). subst c.
  assert (EB : b = f * (1 - a * d)).
  { apply (Rmult_eq_reg_l (/ f)); [|apply Rinv_neq_0_compat; assumption]. transitivity (1 - a * d); [lra|field; assumption]. }
  subst b. assert (P : so + si = so * si * / f) by (rewrite <- E; field; auto). split.
  - transitivity (1 - si * / f); [field; assumption|]. rewrite <- E. field. auto.
  - transitivity (so + si - so * si * / f); [field; assumption|]. rewrite P. ring.
Qed.
Lemma lens_det : forall k1 k2 n t, n <> 0 -> let a := lens_matrix k1 k2 n t in mA a * mD a - mB a * mC a = 1.
Proof. intros k1 k2 n t N. unfold lens_matrix, m2_mul, cross, travel. cbn [mA mB mC mD]. field. exact N. Qed.

Theorem points_are_imaged : forall asort, argsort_ok asort ->
  forall r1 r2 t ap index_at, ap_ok ap -> rim_clear ap -> lens_fits r1 r2 t (reach ap) ->
  built asort (thick_lens r1 r2 t ap (Refractor index_at)) (fun s =>
  forall k1 k2 n f wl, curvature r1 k1 -> curvature r2 k2 -> index_at wl = Fin n -> 0 < n ->
  lensmakers_equation r1 r2 (Fin n) (Fin t) = Some (Fin f) ->
  forall so si, so <> 0 -> si <> 0 -> / so + / si = / f ->
  forall x0 d b, x0 = - (t / 2) - f * (n - 1) * t * k2 / n - so -> d = t / 2 - f * (n - 1) * t * k1 / n + si ->
  x0 < - (t / 2) -> screen_at d b -> t / 2 + ray_offset_value < d ->
  forall ey ez h0 u0 eps, ey * ey + ez * ez = 1 -> 0 < eps -> exists delta, 0 < delta /\
  forall y, 0 < Rabs y < delta ->
  forall gen h tr fuel tr' i c, proper gen h tr [s; b] -> (3 <= t_limit tr)%Z -> trace asort h gen fuel tr = TOk tr' ->
    nth_error (source_rays gen tr) i = Some c -> c_ray c = sloped ey ez x0 (h0 * y) (u0 * y) -> c_idx c = 1 -> c_wl c = wl ->
  exists w0 w1 w2 H, rows_with_id i (f_rows (get_results tr')) = [w0; w1; w2] /\ In (row_surf w2) (map s_id (surface_ids b)) /\
    row_end w2 = V4 d (H * ey) (H * ez) 0 /\ Rabs (H - - (si / so) * (h0 * y)) < eps * Rabs y).
Proof.
  intros asort AS r1 r2 t ap index_at A CL FIT. eapply built_weaken; [|exact (gaussian_optics asort AS r1 r2 t ap index_at A CL FIT)]. cbv beta.
  intros s G k1 k2 n f wl K1 K2 IX NP LM so si S1 S2 EQ x0 d b EX ED BX SC BD ey ez h0 u0 eps EU EP0.
  destruct (G k1 k2 d b K1 K2 SC BD ey ez x0 h0 u0 wl n EU BX IX NP eps EP0) as (dl & DP & Q). exists dl. split; [exact DP|].
  intros y Y gen h tr fuel tr' i c PR LIM TR N RC CI CW.
  destruct (Q y Y gen h tr fuel tr' i c PR LIM TR N RC CI CW) as (w0 & w1 & w2 & H & E & _ & _ & _ & SU & EN & HB).
  exists w0, w1, w2, H. do 3 (split; [assumption|]).
  pose proof (lens_focal r1 r2 t n k1 k2 f K1 K2 NP LM) as FC.
  destruct (imaging_algebra _ _ _ _ f so si (lens_det k1 k2 n t ltac:(lra)) FC S1 S2 EQ) as (GA & GB).
  assert (EA : f * (mA (lens_matrix k1 k2 n t) - 1) = - (f * (n - 1) * t * k1 / n)) by (unfold lens_matrix, m2_mul, cross, travel; cbn [mA mB mC mD]; field; lra).
  assert (EDD : f * (mD (lens_matrix k1 k2 n t) - 1) = f * (n - 1) * t * k2 / n) by (unfold lens_matrix, m2_mul, cross, travel; cbn [mA mB mC mD]; field; lra).
  assert (L1 : - (t / 2) - x0 = so + f * (mD (lens_matrix k1 k2 n t) - 1)) by lra.
  assert (L2 : d - t / 2 = si + f * (mA (lens_matrix k1 k2 n t) - 1)) by lra.
  replace (height_of (gauss k1 k2 n t x0 d) h0 u0) with (- (si / so) * h0) in HB.
  - destruct Y as (YP & _). assert (YN : y <> 0) by (intro Z; rewrite Z, Rabs_R0 in YP; lra).
    replace (H - - (si / so) * (h0 * y)) with ((H / y - - (si / so) * h0) * y) by (field; auto).
    rewrite Rabs_mult. apply Rmult_lt_compat_r; assumption.
  - unfold height_of, gauss. rewrite L1, L2. set (a := lens_matrix k1 k2 n t) in *. clearbody a.
    unfold m2_mul, travel. cbn [mA mB mC mD].
    transitivity ((mA a + (si + f * (mA a - 1)) * mC a) * h0 + (mA a * (so + f * (mD a - 1)) + mB a + (si + f * (mA a - 1)) * (mC a * (so + f * (mD a - 1)) + mD a)) * u0); [|ring].
    rewrite GA, GB. ring.
Qed.
