(** * ChromaProps: lenses bend short waves more than long ones *)
From Coq Require Import Reals Lra Lia List Bool ZArith Psatz.
Import ListNotations.
From Verif Require Import XR XRFacts Lin Ops Prim Csg CsgProps Surf World Tracer SpecTrace Components SpecComponents ComponentFacts2 Utils SpecUtils UtilProps SpecGauss GaussProps TraceFacts8 MotionFacts2 SpecChroma.
Open Scope R_scope.

Lemma far_height : forall k1 k2 n t x0 d, n <> 0 ->
  height_of (gauss k1 k2 n t x0 d) 1 0 = 1 - (n - 1) * t * k1 / n - (d - t / 2) * ((n - 1) * (k1 - k2) + t * k1 * k2 * ((n - 1) * (n - 1) / n)).
Proof.
  intros. unfold height_of, gauss, lens_matrix, m2_mul, cross, travel. cbn [mA mB mC mD]. field. assumption.
Qed.
Lemma height_gap : forall k1 k2 n m t x0 d, n <> 0 -> m <> 0 ->
  height_of (gauss k1 k2 m t x0 d) 1 0 - height_of (gauss k1 k2 n t x0 d) 1 0 =
  (n - m) * (t * k1 * / (n * m) + (d - t / 2) * (k1 - k2 + t * k1 * k2 * (1 - / (n * m)))).
Proof. intros. rewrite !far_height by assumption. field. split; assumption. Qed.
Lemma part_of_one : forall n m, 1 < m -> m < n -> 0 < / (n * m) < 1.
Proof.
  intros n m M N. assert (P : 1 < n * m) by nra. split; [apply Rinv_0_lt_compat; lra|].
  rewrite <- Rinv_1. apply Rinv_lt_contravar; lra.
Qed.
Lemma converging_gap : forall k1 k2 n m t x0 d, 1 < m -> m < n -> 0 < t -> t / 2 < d -> 0 <= k1 -> k2 < k1 -> (k2 < 0 -> t * k1 * - k2 < k1 - k2) ->
  height_of (gauss k1 k2 n t x0 d) 1 0 < height_of (gauss k1 k2 m t x0 d) 1 0.
Proof.
  intros k1 k2 n m t x0 d M N T D K1 K K2. pose proof (height_gap k1 k2 n m t x0 d ltac:(lra) ltac:(lra)) as E.
  destruct (part_of_one n m M N) as (A & B). set (q := / (n * m)) in *. clearbody q.
  assert (Q : 0 < k1 - k2 + t * k1 * k2 * (1 - q)).
  { destruct (Rlt_dec k2 0) as [NK|NK].
    - specialize (K2 NK). assert (0 <= t * k1 * - k2) by (apply Rmult_le_pos; [apply Rmult_le_pos|]; lra). nra.
    - assert (0 <= t * k1 * k2) by (apply Rmult_le_pos; [apply Rmult_le_pos|]; lra). nra. }
  assert (0 < (d - t / 2) * (k1 - k2 + t * k1 * k2 * (1 - q))) by (apply Rmult_lt_0_compat; lra).
  assert (0 <= t * k1 * q) by (apply Rmult_le_pos; [apply Rmult_le_pos|]; lra).
  assert (0 < (n - m) * (t * k1 * q + (d - t / 2) * (k1 - k2 + t * k1 * k2 * (1 - q)))) by (apply Rmult_lt_0_compat; lra). lra.
Qed.
Lemma diverging_gap : forall k1 k2 n m t x0 d, 1 < m -> m < n -> 0 < t -> t / 2 < d -> k1 <= 0 -> 0 <= k2 -> k1 < k2 ->
  height_of (gauss k1 k2 m t x0 d) 1 0 < height_of (gauss k1 k2 n t x0 d) 1 0.
Proof.
  intros k1 k2 n m t x0 d M N T D K1 K2 K. pose proof (height_gap k1 k2 n m t x0 d ltac:(lra) ltac:(lra)) as E.
  destruct (part_of_one n m M N) as (A & B). set (q := / (n * m)) in *. clearbody q.
  assert (0 <= t * - k1 * k2) by (apply Rmult_le_pos; [apply Rmult_le_pos|]; lra).
  assert (Q : 0 < k2 - k1 + t * - k1 * k2 * (1 - q)) by nra.
  assert (0 < (d - t / 2) * (k2 - k1 + t * - k1 * k2 * (1 - q))) by (apply Rmult_lt_0_compat; lra).
  assert (0 <= t * - k1 * q) by (apply Rmult_le_pos; [apply Rmult_le_pos|]; lra).
  assert (0 < (n - m) * (t * - k1 * q + (d - t / 2) * (k2 - k1 + t * - k1 * k2 * (1 - q)))) by (apply Rmult_lt_0_compat; lra). lra.
Qed.
(** In a lens that fits its aperture the two spheres overlap by less than the sum of their radii. *)
Lemma fits_thin : forall r1 r2 t h k1 k2, 0 <= h -> lens_fits r1 r2 t h -> curvature r1 k1 -> curvature r2 k2 -> 0 <= k1 -> k2 < 0 -> t * k1 * - k2 < k1 - k2.
Proof.
  intros r1 r2 t h k1 k2 HP (_ & _ & T & F & B) K1 K2 P N.
  destruct r2 as [y| | |]; cbn in K2; try (subst; lra); try contradiction. destruct K2 as (YN & ->).
  assert (Y : y < 0). { destruct (Rlt_dec y 0); [assumption|]. assert (0 < y) by lra. pose proof (Rinv_0_lt_compat y ltac:(assumption)). lra. }
  specialize (B y eq_refl Y).
  destruct r1 as [x| | |]; cbn in K1; try (subst; lra); try contradiction. destruct K1 as (XN & ->).
  assert (X : 0 < x). { destruct (Rlt_dec 0 x); [assumption|]. assert (x < 0) by lra. pose proof (Rinv_lt_0_compat x ltac:(assumption)). lra. }
  specialize (F x eq_refl X 0 ltac:(nra)). unfold lens_back, sag in F. replace (rltb 0 y) with false in F by (symmetry; apply rltb_false; lra).
  rewrite Rminus_0_r in F. replace (y * y) with (- y * - y) in F by ring. rewrite sqrt_square in F by lra.
  assert (E : / x - / y - t * / x * - / y = (x - y - t) * (/ x * - / y)) by (field; lra).
  assert (0 < (x - y - t) * (/ x * - / y)).
  { apply Rmult_lt_0_compat; [lra|]. apply Rmult_lt_0_compat; [apply Rinv_0_lt_compat; lra|]. pose proof (Rinv_lt_0_compat y Y). lra. }
  lra.
Qed.
Lemma reach_nonneg : forall ap, ap_ok ap -> 0 <= reach ap.
Proof. intros [d|a b] A; cbn in *; [lra|apply sqrt_pos]. Qed.

(** Two colours on one screen: [lo] and [hi] are the heights Gaussian optics gives. *)
Lemma two_colours : forall asort, argsort_ok asort -> forall r1 r2 t ap index_at, ap_ok ap -> rim_clear ap -> lens_fits r1 r2 t (reach ap) ->
  built asort (thick_lens r1 r2 t ap (Refractor index_at)) (fun s =>
  forall k1 k2 d b, curvature r1 k1 -> curvature r2 k2 -> screen_at d b -> t / 2 + ray_offset_value < d ->
  forall ey ez x0 wa wb na nb, ey * ey + ez * ez = 1 -> x0 < - (t / 2) -> index_at wa = Fin na -> 0 < na -> index_at wb = Fin nb -> 0 < nb ->
  height_of (gauss k1 k2 na t x0 d) 1 0 < height_of (gauss k1 k2 nb t x0 d) 1 0 ->
  exists gap delta, 0 < gap /\ 0 < delta /\
  forall y, 0 < Rabs y < delta ->
  forall gen h tr fuel tr' i j c c', proper gen h tr [s; b] -> (3 <= t_limit tr)%Z -> trace asort h gen fuel tr = TOk tr' ->
    nth_error (source_rays gen tr) i = Some c -> nth_error (source_rays gen tr) j = Some c' ->
    c_ray c = Ray (V4 x0 (y * ey) (y * ez) 1) (V4 1 0 0 0) -> c_ray c' = c_ray c -> c_idx c = 1 -> c_idx c' = 1 -> c_wl c = wa -> c_wl c' = wb ->
  exists u0 u1 u w0 w1 w H H',
    rows_with_id i (f_rows (get_results tr')) = [u0; u1; u] /\ rows_with_id j (f_rows (get_results tr')) = [w0; w1; w] /\
    In (row_surf u) (map s_id (surface_ids b)) /\ In (row_surf w) (map s_id (surface_ids b)) /\
    row_end u = V4 d (H * ey) (H * ez) 0 /\ row_end w = V4 d (H' * ey) (H' * ez) 0 /\ H / y + gap < H' / y).
Proof.
  intros asort AS r1 r2 t ap index_at A CL FIT. eapply built_weaken; [|exact (gaussian_optics asort AS r1 r2 t ap index_at A CL FIT)]. cbv beta.
  intros s G k1 k2 d b K1 K2 SC BD ey ez x0 wa wb na nb EU BX IA NA IB NB LT.
  set (lo := height_of (gauss k1 k2 na t x0 d) 1 0) in *. set (hi := height_of (gauss k1 k2 nb t x0 d) 1 0) in *.
  assert (EP : 0 < (hi - lo) / 3) by lra.
  destruct (G k1 k2 d b K1 K2 SC BD ey ez x0 1 0 wa na EU BX IA NA _ EP) as (da & DA & QA).
  destruct (G k1 k2 d b K1 K2 SC BD ey ez x0 1 0 wb nb EU BX IB NB _ EP) as (db & DB & QB).
  exists ((hi - lo) / 3), (Rmin da db). split; [exact EP|]. split; [apply Rmin_glb_lt; assumption|].
  intros y (Y0 & Y1) gen h tr fuel tr' i j c c' PR LIM TR N N' RC RC' CI CI' CW CW'.
  assert (SL : sloped ey ez x0 (1 * y) (0 * y) = Ray (V4 x0 (y * ey) (y * ez) 1) (V4 1 0 0 0)).
  { unfold sloped, meridional. replace (1 + 0 * y * (0 * y)) with 1 by ring. rewrite sqrt_1, Rinv_1. f_equal; f_equal; field. }
  pose proof (Rmin_l da db). pose proof (Rmin_r da db).
  destruct (QA y ltac:(split; lra) gen h tr fuel tr' i c PR LIM TR N) as (u0 & u1 & u & H1 & E & _ & _ & _ & SU & EN & HB); auto; [congruence|].
  destruct (QB y ltac:(split; lra) gen h tr fuel tr' j c' PR LIM TR N') as (w0 & w1 & w & H2 & E' & _ & _ & _ & SU' & EN' & HB'); auto; [congruence|].
  exists u0, u1, u, w0, w1, w, H1, H2. do 6 (split; [assumption|]). fold lo in HB. fold hi in HB'.
  apply Rabs_def2 in HB. apply Rabs_def2 in HB'. lra.
Qed.

Theorem short_waves_converge : forall asort, argsort_ok asort -> forall r1 r2 t ap g, ap_ok ap -> rim_clear ap -> lens_fits r1 r2 t (reach ap) -> g <> Ideal ->
  built asort (thick_lens r1 r2 t ap (glass_material g)) (fun s =>
  forall k1 k2 d b, curvature r1 k1 -> curvature r2 k2 -> 0 <= k1 -> k2 < k1 -> screen_at d b -> t / 2 + ray_offset_value < d ->
  forall ey ez x0 blue red, ey * ey + ez * ez = 1 -> x0 < - (t / 2) -> visible blue -> visible red -> blue < red ->
  exists gap delta, 0 < gap /\ 0 < delta /\
  forall y, 0 < Rabs y < delta ->
  forall gen h tr fuel tr' i j c c', proper gen h tr [s; b] -> (3 <= t_limit tr)%Z -> trace asort h gen fuel tr = TOk tr' ->
    nth_error (source_rays gen tr) i = Some c -> nth_error (source_rays gen tr) j = Some c' ->
    c_ray c = Ray (V4 x0 (y * ey) (y * ez) 1) (V4 1 0 0 0) -> c_ray c' = c_ray c -> c_idx c = 1 -> c_idx c' = 1 -> c_wl c = blue -> c_wl c' = red ->
  exists u0 u1 u w0 w1 w H H',
    rows_with_id i (f_rows (get_results tr')) = [u0; u1; u] /\ rows_with_id j (f_rows (get_results tr')) = [w0; w1; w] /\
    In (row_surf u) (map s_id (surface_ids b)) /\ In (row_surf w) (map s_id (surface_ids b)) /\
    row_end u = V4 d (H * ey) (H * ez) 0 /\ row_end w = V4 d (H' * ey) (H' * ez) 0 /\ H / y + gap < H' / y).
Proof.
  intros asort AS r1 r2 t ap g A CL FIT GI. eapply built_weaken; [|exact (two_colours asort AS r1 r2 t ap (glass g) A CL FIT)]. cbv beta.
  intros s G k1 k2 d b K1 K2 P1 P2 SC BD ey ez x0 blue red EU BX VB VR BR.
  destruct (catalogue_visible g blue VB) as (n & EB & NB). destruct (catalogue_visible g red VR) as (m & ER & NR).
  pose proof (normal_dispersion g blue red n m GI VB VR BR EB ER) as NM.
  assert (T : 0 < t) by (destruct FIT as (_ & _ & T & _); lra).
  apply (G k1 k2 d b K1 K2 SC BD ey ez x0 blue red n m); auto; try lra.
  apply converging_gap; auto; [unfold ray_offset_value in BD; lra|].
  intro NK. exact (fits_thin r1 r2 t (reach ap) k1 k2 (reach_nonneg ap A) FIT K1 K2 P1 NK).
Qed.
Theorem short_waves_diverge : forall asort, argsort_ok asort -> forall r1 r2 t ap g, ap_ok ap -> rim_clear ap -> lens_fits r1 r2 t (reach ap) -> g <> Ideal ->
  built asort (thick_lens r1 r2 t ap (glass_material g)) (fun s =>
  forall k1 k2 d b, curvature r1 k1 -> curvature r2 k2 -> k1 <= 0 -> 0 <= k2 -> k1 < k2 -> screen_at d b -> t / 2 + ray_offset_value < d ->
  forall ey ez x0 blue red, ey * ey + ez * ez = 1 -> x0 < - (t / 2) -> visible blue -> visible red -> blue < red ->
  exists gap delta, 0 < gap /\ 0 < delta /\
  forall y, 0 < Rabs y < delta ->
  forall gen h tr fuel tr' i j c c', proper gen h tr [s; b] -> (3 <= t_limit tr)%Z -> trace asort h gen fuel tr = TOk tr' ->
    nth_error (source_rays gen tr) i = Some c -> nth_error (source_rays gen tr) j = Some c' ->
    c_ray c = Ray (V4 x0 (y * ey) (y * ez) 1) (V4 1 0 0 0) -> c_ray c' = c_ray c -> c_idx c = 1 -> c_idx c' = 1 -> c_wl c = blue -> c_wl c' = red ->
  exists u0 u1 u w0 w1 w H H',
    rows_with_id i (f_rows (get_results tr')) = [u0; u1; u] /\ rows_with_id j (f_rows (get_results tr')) = [w0; w1; w] /\
    In (row_surf u) (map s_id (surface_ids b)) /\ In (row_surf w) (map s_id (surface_ids b)) /\
    row_end u = V4 d (H * ey) (H * ez) 0 /\ row_end w = V4 d (H' * ey) (H' * ez) 0 /\ H' / y + gap < H / y).
Proof.
  intros asort AS r1 r2 t ap g A CL FIT GI. eapply built_weaken; [|exact (two_colours asort AS r1 r2 t ap (glass g) A CL FIT)]. cbv beta.
  intros s G k1 k2 d b K1 K2 P1 P2 P3 SC BD ey ez x0 blue red EU BX VB VR BR.
  destruct (catalogue_visible g blue VB) as (n & EB & NB). destruct (catalogue_visible g red VR) as (m & ER & NR).
  pose proof (normal_dispersion g blue red n m GI VB VR BR EB ER) as NM.
  assert (T : 0 < t) by (destruct FIT as (_ & _ & T & _); lra).
  destruct (G k1 k2 d b K1 K2 SC BD ey ez x0 red blue m n) as (gap & dl & GP & DP & Q); auto; try lra.
  { apply diverging_gap; auto. unfold ray_offset_value in BD; lra. }
  exists gap, dl. do 2 (split; [assumption|]). intros y Y gen h tr fuel tr' i j c c' PR LIM TR N N' RC RC' CI CI' CW CW'.
  destruct (Q y Y gen h tr fuel tr' j i c' c PR LIM TR N' N) as (w0 & w1 & w & u0 & u1 & u & H' & H & E' & E & SU' & SU & EN' & EN & L); auto; try congruence.
  exists u0, u1, u, w0, w1, w, H, H'. repeat (split; [assumption|]). assumption.
Qed.

(** ** Rays of different colour *)
(** The same place, direction, generation and index *)
Definition like (c c' : col) : Prop := c_ray c = c_ray c' /\ c_gen c = c_gen c' /\ c_idx c = c_idx c'.
Lemma material_like : forall s c c1 d, like c d -> colour_blind (c_wl c) (c_wl d) s -> material_trace s c = Some c1 ->
  exists d1, material_trace s d = Some d1 /\ like c1 d1 /\ c_wl c1 = c_wl c /\ c_wl d1 = c_wl d.
Proof.
  intros s c c1 d (E1 & E2 & E3) CB M. unfold material_trace, colour_blind in *. destruct (s_mat s) as [| |f|].
  - injection M as <-. eexists. split; [reflexivity|]. unfold like, with_direction, with_ray; cbn. rewrite E1, E2, E3. auto.
  - rewrite E1 in M. destruct (world_normal s (origin (c_ray d))) as [n|]; [|discriminate]. injection M as <-.
    eexists. split; [reflexivity|]. unfold like, with_direction, with_ray; cbn. rewrite E1, E2, E3. auto.
  - rewrite E1, CB, E3 in M. destruct (world_normal s (origin (c_ray d))) as [n|]; [|discriminate]. destruct (f (c_wl d)) as [n2| | |]; try discriminate.
    destruct (refract (direction (c_ray d)) n (c_idx d) n2 world_index) as [(v & m)|]; [|discriminate]. injection M as <-.
    eexists. split; [reflexivity|]. unfold like, with_idx, with_direction, with_ray; cbn. rewrite E1, E2. auto.
  - discriminate.
Qed.
Lemma like_forward : forall t c d, like c d -> like (forward t c) (forward t d).
Proof. intros t c d (A & B & C). unfold like, forward, with_ray; cbn. rewrite A, B, C. auto. Qed.
Lemma history_like : forall asort comps surfaces limit g c rows, history asort comps surfaces limit g c rows ->
  forall d, like c d -> (forall s, In s surfaces -> colour_blind (c_wl c) (c_wl d) s) ->
  exists rows', history asort comps surfaces limit g d rows' /\ Forall2 same_leg rows rows'.
Proof.
  intros asort comps surfaces limit. induction 1 as [g c G L|g c ST|g c t sid s c' rows LI NS FH IS SI M H IH]; intros d LK CB.
  - exists []. split; [apply History_limit; assumption|constructor].
  - exists []. split; [|constructor]. apply History_stopped. destruct LK as (E & _). unfold stopped in *. rewrite <- E. exact ST.
  - destruct (material_like s (forward t c) c' (forward t d) (like_forward t c d LK)) as (d' & M' & LK' & W1 & W2).
    { exact (CB s IS). } { exact M. }
    destruct (IH (forward ray_offset_value (with_gen (S g) d'))) as (rows' & H' & F).
    { apply like_forward. destruct LK' as (A & B & C). unfold like, with_gen; cbn. auto. }
    { intros s0 I0. cbn. change (c_wl (forward t c)) with (c_wl c) in W1. change (c_wl (forward t d)) with (c_wl d) in W2. rewrite W1, W2. exact (CB s0 I0). }
    destruct LK as (E1 & E2 & E3). destruct LK' as (F1 & F2 & F3).
    eexists. split.
    + eapply History_hit; try eassumption.
      * unfold stopped. rewrite <- E1. exact NS.
      * rewrite <- E1. exact FH.
    + constructor; [|exact F]. unfold same_leg; cbn. rewrite E1, E2, E3, F1. repeat split; reflexivity.
Qed.
Theorem colours_go_the_same_way : forall asort, argsort_ok asort -> forall h gen fuel t t' comps i j c c',
  trace asort h gen fuel t = TOk t' -> scene h t comps ->
  nth_error (source_rays gen t) i = Some c -> nth_error (source_rays gen t) j = Some c' ->
  c_ray c = c_ray c' -> c_gen c = c_gen c' -> c_idx c = c_idx c' ->
  (forall s, In s (flat_map surface_ids comps) -> colour_blind (c_wl c) (c_wl c') s) ->
  Forall2 same_leg (rows_with_id i (f_rows (get_results t'))) (rows_with_id j (f_rows (get_results t'))).
Proof.
  intros asort AS h gen fuel t t' comps i j c c' TR SC N N' R1 R2 R3 CB.
  pose proof (scene_histories asort AS _ _ _ _ _ _ TR SC i c N) as H.
  pose proof (scene_histories asort AS _ _ _ _ _ _ TR SC j c' N') as H'.
  destruct (history_like _ _ _ _ _ _ _ H (with_id j c')) as (rows' & H1 & F).
  { unfold like, with_id; cbn. auto. } { exact CB. }
  rewrite <- (history_unique asort _ _ _ _ _ _ (proj2 (proj2 SC)) H' _ H1). exact F.
Qed.
