(** * FocusProps: slopes behind a train of lenses, and the focus read off from the rows *)
From Coq Require Import Reals Lra Lia List Bool ZArith Permutation.
Import ListNotations.
From Verif Require Import XR XRFacts Lin Csg CsgProps Prim Surf World Tracer SpecTrace TraceProps Components SpecComponents Utils SpecUtils UtilProps SpecGauss GaussProps SpecTrain TrainFacts TrainProps SpecFocus.
Open Scope R_scope.

Lemma quotient_near : forall A K eps, K <> 0 -> 0 < eps -> exists e, 0 < e /\
  forall c p q, Rabs (c - 1) < e -> Rabs (p - A) < e -> Rabs (q - K) < e -> q <> 0 /\ Rabs (c * p / q - A / K) < eps.
Proof.
  intros A K eps KN EP. set (M := Rabs K * (Rabs A + 2) + Rabs A + 1).
  assert (KP : 0 < Rabs K) by (apply Rabs_pos_lt; exact KN). pose proof (Rabs_pos A) as AP.
  assert (MP : 0 < M) by (unfold M; assert (0 <= Rabs K * (Rabs A + 2)) by (apply Rmult_le_pos; lra); lra).
  set (e := Rmin (Rmin 1 (Rabs K / 2)) (eps * (Rabs K * Rabs K) / (2 * M))).
  assert (E3P : 0 < eps * (Rabs K * Rabs K) / (2 * M)) by (apply Rdiv_lt_0_compat; [apply Rmult_lt_0_compat; [lra|apply Rmult_lt_0_compat; lra]|lra]).
  assert (EE : e <= 1 /\ e <= Rabs K / 2 /\ e <= eps * (Rabs K * Rabs K) / (2 * M)).
  { unfold e. pose proof (Rmin_l (Rmin 1 (Rabs K / 2)) (eps * (Rabs K * Rabs K) / (2 * M))). pose proof (Rmin_r (Rmin 1 (Rabs K / 2)) (eps * (Rabs K * Rabs K) / (2 * M))).
    pose proof (Rmin_l 1 (Rabs K / 2)). pose proof (Rmin_r 1 (Rabs K / 2)). repeat split; lra. }
  assert (E0 : 0 < e) by (unfold e; apply Rmin_glb_lt; [apply Rmin_glb_lt; lra|exact E3P]).
  clearbody e. destruct EE as (E1 & E2 & E3). exists e. split; [exact E0|]. intros c p q HC HP HQ.
  assert (QB : Rabs K / 2 < Rabs q).
  { pose proof (Rabs_triang (K - q) q) as T. replace (K - q + q) with K in T by ring. rewrite Rabs_minus_sym in T. lra. }
  assert (QN : q <> 0) by (intros ->; rewrite Rabs_R0 in QB; lra). split; [exact QN|].
  replace (c * p / q - A / K) with ((K * ((c - 1) * p + (p - A)) - A * (q - K)) / (q * K)) by (field; split; assumption).
  unfold Rdiv. rewrite Rabs_mult, Rabs_inv, Rabs_mult.
  assert (PB : Rabs p <= Rabs A + 1). { pose proof (Rabs_triang (p - A) A) as T. replace (p - A + A) with p in T by ring. lra. }
  assert (NB : Rabs (K * ((c - 1) * p + (p - A)) - A * (q - K)) <= e * (Rabs K * (Rabs A + 2) + Rabs A)).
  { eapply Rle_trans; [apply Rabs_triang|]. rewrite Rabs_Ropp, !Rabs_mult.
    assert (Rabs ((c - 1) * p + (p - A)) <= e * (Rabs A + 2)).
    { eapply Rle_trans; [apply Rabs_triang|]. rewrite Rabs_mult. pose proof (Rabs_pos (c - 1)). pose proof (Rabs_pos p).
      assert (Rabs (c - 1) * Rabs p <= e * (Rabs A + 1)) by (apply Rmult_le_compat; lra). lra. }
    assert (Rabs K * Rabs ((c - 1) * p + (p - A)) <= Rabs K * (e * (Rabs A + 2))) by (apply Rmult_le_compat_l; lra).
    assert (Rabs A * Rabs (q - K) <= Rabs A * e) by (apply Rmult_le_compat_l; lra). lra. }
  assert (DB : Rabs K * Rabs K / 2 < Rabs q * Rabs K) by (assert (Rabs K / 2 * Rabs K < Rabs q * Rabs K) by (apply Rmult_lt_compat_r; lra); lra).
  assert (KK : 0 < Rabs K * Rabs K) by (apply Rmult_lt_0_compat; lra).
  apply (Rmult_lt_reg_r (Rabs q * Rabs K)); [lra|]. rewrite Rmult_assoc, Rinv_l, Rmult_1_r by lra.
  eapply Rle_lt_trans; [exact NB|].
  assert (EM : e * M <= eps * (Rabs K * Rabs K) / 2).
  { replace (eps * (Rabs K * Rabs K) / 2) with (eps * (Rabs K * Rabs K) / (2 * M) * M) by (field; lra). apply Rmult_le_compat_r; lra. }
  assert (eps * (Rabs K * Rabs K / 2) < eps * (Rabs q * Rabs K)) by (apply Rmult_lt_compat_l; lra).
  replace (e * (Rabs K * (Rabs A + 2) + Rabs A)) with (e * M - e) by (unfold M; ring). lra.
Qed.

Theorem rows_tell_the_focus : forall asort, argsort_ok asort -> forall ls ss d b comps, Forall lens_ok ls -> Forall2 (fun l s => made asort (lens_call l) s) ls ss ->
  screen_at d b -> Permutation comps (b :: ss) ->
  forall wl x0 a ns, in_line x0 ls d -> gaussian wl d x0 ls a ns ->
  forall ey ez h0 u0, ey * ey + ez * ez = 1 -> ey <> 0 -> slope_of a h0 u0 <> 0 -> forall eps, 0 < eps -> exists delta, 0 < delta /\
  forall y, 0 < Rabs y < delta ->
  forall gen h tr fuel tr' i c, proper gen h tr comps -> (Z.of_nat (length ns) <= t_limit tr)%Z -> trace asort h gen fuel tr = TOk tr' ->
    nth_error (source_rays gen tr) i = Some c -> c_ray c = sloped ey ez x0 (h0 * y) (u0 * y) -> c_idx c = 1 -> c_wl c = wl ->
  exists rows w, rows_with_id i (f_rows (get_results tr')) = rows ++ [w] /\ In (row_surf w) (map s_id (surface_ids b)) /\
    Rabs (axis_crossing w - (d - height_of a h0 u0 / slope_of a h0 u0)) < eps.
Proof.
  intros asort AS ls ss d b comps OKS MS SC PE wl x0 a ns LI G ey ez h0 u0 EU EN SN eps EP0.
  destruct (quotient_near (height_of a h0 u0) (slope_of a h0 u0) eps SN EP0) as (e & E0 & QN).
  destruct (lens_trains_slopes asort AS ls ss d b comps OKS MS SC PE wl x0 a ns LI G ey ez h0 u0 EU e E0) as (dl & DP & Q). exists dl. split; [exact DP|].
  intros y Y gen h tr fuel tr' i c PR LM TR N RC CI CW. destruct (Q y Y gen h tr fuel tr' i c PR LM TR N RC CI CW) as (rows & w & H & C & S & E & MI & SU & END & TI & CP & CU & HB & CB & SB).
  exists rows, w. do 2 (split; [assumption|]).
  destruct (QN C (H / y) (S / y) CB HB SB) as (QZ & QB).
  assert (YN : y <> 0) by (intros ->; rewrite Rabs_R0 in Y; lra).
  assert (SZ : S <> 0) by (intros ->; apply QZ; unfold Rdiv; ring).
  destruct (proper_legs asort AS _ _ _ _ _ _ PR TR) as (LG & _).
  assert (IW : In w (f_rows (get_results tr'))).
  { assert (I : In w (rows_with_id i (f_rows (get_results tr')))) by (rewrite E; apply in_or_app; right; left; reflexivity). unfold rows_with_id in I. apply filter_In in I. apply I. }
  destruct (LG w IW) as (_ & _ & t & _ & ED & _). rewrite END, TI in ED.
  assert (X1 : vx (row_start w) = d - t * C) by (apply (f_equal vx) in ED; unfold vadd, vscale in ED; cbn [vx] in ED; lra).
  assert (Y1 : vy (row_start w) = (H - t * S) * ey) by (apply (f_equal vy) in ED; unfold vadd, vscale in ED; cbn [vy] in ED; lra).
  unfold axis_crossing. rewrite TI, X1, Y1. cbn [vx vy].
  replace (- C * ((H - t * S) * ey) / (S * ey) + (d - t * C) - (d - height_of a h0 u0 / slope_of a h0 u0)) with (- (C * (H / y) / (S / y) - height_of a h0 u0 / slope_of a h0 u0)) by (field; auto).
  rewrite Rabs_Ropp. exact QB.
Qed.

(** A source in the front focal point: the matrix has no D. *)
Theorem train_collimates : forall asort, argsort_ok asort -> forall ls ss d b comps, Forall lens_ok ls -> Forall2 (fun l s => made asort (lens_call l) s) ls ss ->
  screen_at d b -> Permutation comps (b :: ss) ->
  forall wl x0 a ns, in_line x0 ls d -> gaussian wl d x0 ls a ns -> mD a = 0 ->
  forall ey ez h0 u0, ey * ey + ez * ez = 1 -> forall eps, 0 < eps -> exists delta, 0 < delta /\
  forall y, 0 < Rabs y < delta ->
  forall gen h tr fuel tr' i c, proper gen h tr comps -> (Z.of_nat (length ns) <= t_limit tr)%Z -> trace asort h gen fuel tr = TOk tr' ->
    nth_error (source_rays gen tr) i = Some c -> c_ray c = sloped ey ez x0 (h0 * y) (u0 * y) -> c_idx c = 1 -> c_wl c = wl ->
  exists rows w C S, rows_with_id i (f_rows (get_results tr')) = rows ++ [w] /\ In (row_surf w) (map s_id (surface_ids b)) /\
    row_tilt w = V4 C (S * ey) (S * ez) 0 /\ 0 < C /\ Rabs (S - mC a * (h0 * y)) < eps * Rabs y.
Proof.
  intros asort AS ls ss d b comps OKS MS SC PE wl x0 a ns LI G DZ ey ez h0 u0 EU eps EP0.
  destruct (lens_trains_slopes asort AS ls ss d b comps OKS MS SC PE wl x0 a ns LI G ey ez h0 u0 EU eps EP0) as (dl & DP & Q). exists dl. split; [exact DP|].
  intros y Y gen h tr fuel tr' i c PR LM TR N RC CI CW. destruct (Q y Y gen h tr fuel tr' i c PR LM TR N RC CI CW) as (rows & w & H & C & S & E & MI & SU & END & TI & CP & CU & HB & CB & SB).
  exists rows, w, C, S. do 4 (split; [assumption|]). assert (YN : y <> 0) by (intros ->; rewrite Rabs_R0 in Y; lra).
  unfold slope_of in SB. rewrite DZ in SB. replace (S - mC a * (h0 * y)) with ((S / y - (mC a * h0 + 0 * u0)) * y) by (field; exact YN).
  rewrite Rabs_mult. apply Rmult_lt_compat_r; [apply Y|exact SB].
Qed.

(** ** One lens and the lensmaker's equation *)
Lemma curvature_unique : forall r k k', curvature r k -> curvature r k' -> k = k'.
Proof. intros [r| | |] k k' A B; cbn in *; try contradiction; [destruct A as (_ & ->), B as (_ & ->); reflexivity|congruence..]. Qed.
Lemma lens_focal : forall l n f k1 k2, curvature (l_r1 l) k1 -> curvature (l_r2 l) k2 -> 0 < n ->
  lensmakers_equation (l_r1 l) (l_r2 l) (Fin n) (Fin (l_t l)) = Some (Fin f) -> f * mC (lens_matrix k1 k2 n (l_t l)) = -1.
Proof.
  intros l n f k1 k2 K1 K2 NP LM. destruct (lensmaker_paraxial (l_r1 l) (l_r2 l) n (l_t l) k1 k2 K1 K2 ltac:(lra)) as (F1 & F2).
  destruct (Req_dec (mC (lens_matrix k1 k2 n (l_t l))) 0) as [Z|Z].
  - rewrite (F2 Z) in LM. discriminate.
  - destruct (F1 Z) as (f' & E' & F'). rewrite LM in E'. injection E' as ->. exact F'.
Qed.
Lemma single_matrix : forall wl d x0 l a ns, gaussian wl d x0 [l] a ns -> exists k1 k2 n, curvature (l_r1 l) k1 /\ curvature (l_r2 l) k2 /\ l_index l wl = Fin n /\ 0 < n /\
  a = m2_mul (travel (d - back_of l)) (m2_mul (lens_matrix k1 k2 n (l_t l)) (travel (front_of l - x0))) /\ ns = [1; n; 1].
Proof.
  intros wl d x0 l a ns G. inversion G as [|? ? ? k1 k2 n a' ns' K1 K2 IX NP G' E1 E2 E3 E4]; subst. inversion G'; subst. exists k1, k2, n. repeat (split; [assumption|]). split; reflexivity.
Qed.
(** What a user measures with one lens and parallel light *)
Theorem measured_focus : forall asort, argsort_ok asort -> forall l s d b comps, lens_ok l -> made asort (lens_call l) s ->
  screen_at d b -> Permutation comps [b; s] ->
  forall wl x0 n k1 f, l_index l wl = Fin n -> 0 < n -> curvature (l_r1 l) k1 ->
  lensmakers_equation (l_r1 l) (l_r2 l) (Fin n) (Fin (l_t l)) = Some (Fin f) -> x0 < front_of l -> back_of l + ray_offset_value < d ->
  forall ey ez, ey * ey + ez * ez = 1 -> ey <> 0 -> forall eps, 0 < eps -> exists delta, 0 < delta /\
  forall y, 0 < Rabs y < delta ->
  forall gen h tr fuel tr' i c, proper gen h tr comps -> (3 <= t_limit tr)%Z -> trace asort h gen fuel tr = TOk tr' ->
    nth_error (source_rays gen tr) i = Some c -> c_ray c = Ray (V4 x0 (y * ey) (y * ez) 1) (V4 1 0 0 0) -> c_idx c = 1 -> c_wl c = wl ->
  exists rows w, rows_with_id i (f_rows (get_results tr')) = rows ++ [w] /\ In (row_surf w) (map s_id (surface_ids b)) /\
    Rabs (axis_crossing w - (back_of l - f * ((n - 1) * l_t l * k1 / n) + f)) < eps.
Proof.
  intros asort AS l s d b comps OK MS SC PE wl x0 n k1 f IX NP K1 LM B1 B2 ey ez EU EN eps EP0.
  assert (K2 : exists k2, curvature (l_r2 l) k2).
  { destruct (lens_radii l OK) as (_ & NN & _ & NZ & _). destruct (l_r2 l) as [q| | |]; cbn; [exists (/ q); split; [apply NZ; reflexivity|reflexivity]|exists 0; reflexivity|exists 0; reflexivity|congruence]. }
  destruct K2 as (k2 & K2).
  pose proof (lens_focal l n f k1 k2 K1 K2 NP LM) as FC.
  set (a := m2_mul (travel (d - back_of l)) (m2_mul (lens_matrix k1 k2 n (l_t l)) (travel (front_of l - x0)))).
  assert (G : gaussian wl d x0 [l] a [1; n; 1]) by (unfold a; eapply G_lens; eauto; constructor).
  assert (SL : slope_of a 1 0 = mC (lens_matrix k1 k2 n (l_t l))).
  { unfold a, slope_of. generalize (lens_matrix k1 k2 n (l_t l)). intros [ma mb mc md]. unfold m2_mul, travel; cbn [mA mB mC mD]. ring. }
  assert (HT : height_of a 1 0 = mA (lens_matrix k1 k2 n (l_t l)) + (d - back_of l) * mC (lens_matrix k1 k2 n (l_t l))).
  { unfold a, height_of. generalize (lens_matrix k1 k2 n (l_t l)). intros [ma mb mc md]. unfold m2_mul, travel; cbn [mA mB mC mD]. ring. }
  assert (CN : mC (lens_matrix k1 k2 n (l_t l)) <> 0) by (intro Z; rewrite Z in FC; lra).
  destruct (rows_tell_the_focus asort AS [l] [s] d b comps ltac:(constructor; [exact OK|constructor]) ltac:(constructor; [exact MS|constructor]) SC PE wl x0 a [1; n; 1]) with (ey := ey) (ez := ez) (h0 := 1) (u0 := 0) (eps := eps) as (dl & DP & Q); auto.
  { cbn [in_line]. split; assumption. } { rewrite SL. exact CN. }
  exists dl. split; [exact DP|]. intros y Y gen h tr fuel tr' i c PR LIM TR N RC CI CW.
  destruct (Q y Y gen h tr fuel tr' i c PR LIM TR N) as (rows & w & E & SU & HB); auto.
  { rewrite RC. unfold sloped, meridional. replace (1 + 0 * y * (0 * y)) with 1 by ring. rewrite sqrt_1, Rinv_1. f_equal; f_equal; field. }
  exists rows, w. do 2 (split; [assumption|]). rewrite SL, HT in HB.
  assert (AE : mA (lens_matrix k1 k2 n (l_t l)) = 1 - (n - 1) * l_t l * k1 / n) by (unfold lens_matrix, m2_mul, cross, travel; cbn [mA mB mC mD]; field; lra).
  assert (FE : f = - / mC (lens_matrix k1 k2 n (l_t l))) by (apply (Rmult_eq_reg_r (mC (lens_matrix k1 k2 n (l_t l)))); [rewrite FC; field; exact CN|exact CN]).
  replace (back_of l - f * ((n - 1) * l_t l * k1 / n) + f) with (d - (mA (lens_matrix k1 k2 n (l_t l)) + (d - back_of l) * mC (lens_matrix k1 k2 n (l_t l))) / mC (lens_matrix k1 k2 n (l_t l))); [exact HB|].
  transitivity (back_of l + f * mA (lens_matrix k1 k2 n (l_t l))); [rewrite FE; field; exact CN|rewrite AE; ring].
Qed.
(** A point source a focal length before the front principal plane is collimated. *)
Lemma front_focus : forall l n f k1 k2 wl d x0, curvature (l_r1 l) k1 -> curvature (l_r2 l) k2 -> l_index l wl = Fin n -> 0 < n ->
  lensmakers_equation (l_r1 l) (l_r2 l) (Fin n) (Fin (l_t l)) = Some (Fin f) -> x0 = front_of l - f * ((n - 1) * l_t l * k2 / n) - f ->
  exists a, gaussian wl d x0 [l] a [1; n; 1] /\ mD a = 0 /\ f * mC a = -1.
Proof.
  intros l n f k1 k2 wl d x0 K1 K2 IX NP LM ->. pose proof (lens_focal l n f k1 k2 K1 K2 NP LM) as FC.
  eexists. split; [eapply G_lens; eauto; constructor|].
  assert (DE : mD (lens_matrix k1 k2 n (l_t l)) = 1 + (n - 1) * l_t l * k2 / n) by (unfold lens_matrix, m2_mul, cross, travel; cbn [mA mB mC mD]; field; lra).
  revert FC DE. generalize (lens_matrix k1 k2 n (l_t l)). intros [ma mb mc md] FC DE. unfold m2_mul, travel; cbn [mA mB mC mD] in *. split.
  - rewrite DE. transitivity (1 + (n - 1) * l_t l * k2 / n + f * mc * (1 + (n - 1) * l_t l * k2 / n)); [ring|rewrite FC; ring].
  - rewrite <- FC. ring.
Qed.
Theorem collimator : forall asort, argsort_ok asort -> forall l s d b comps, lens_ok l -> made asort (lens_call l) s ->
  screen_at d b -> Permutation comps [b; s] ->
  forall wl x0 n k2 f, l_index l wl = Fin n -> 0 < n -> curvature (l_r2 l) k2 ->
  lensmakers_equation (l_r1 l) (l_r2 l) (Fin n) (Fin (l_t l)) = Some (Fin f) -> x0 = front_of l - f * ((n - 1) * l_t l * k2 / n) - f ->
  x0 < front_of l -> back_of l + ray_offset_value < d ->
  forall ey ez h0 u0, ey * ey + ez * ez = 1 -> forall eps, 0 < eps -> exists delta, 0 < delta /\
  forall y, 0 < Rabs y < delta ->
  forall gen h tr fuel tr' i c, proper gen h tr comps -> (3 <= t_limit tr)%Z -> trace asort h gen fuel tr = TOk tr' ->
    nth_error (source_rays gen tr) i = Some c -> c_ray c = sloped ey ez x0 (h0 * y) (u0 * y) -> c_idx c = 1 -> c_wl c = wl ->
  exists rows w C S, rows_with_id i (f_rows (get_results tr')) = rows ++ [w] /\ In (row_surf w) (map s_id (surface_ids b)) /\
    row_tilt w = V4 C (S * ey) (S * ez) 0 /\ 0 < C /\ Rabs (S + h0 * y / f) < eps * Rabs y.
Proof.
  intros asort AS l s d b comps OK MS SC PE wl x0 n k2 f IX NP K2 LM EX B1 B2 ey ez h0 u0 EU eps EP0.
  assert (K1 : exists k1, curvature (l_r1 l) k1).
  { destruct (lens_radii l OK) as (NN & _ & NZ & _). destruct (l_r1 l) as [q| | |]; cbn; [exists (/ q); split; [apply NZ; reflexivity|reflexivity]|exists 0; reflexivity|exists 0; reflexivity|congruence]. }
  destruct K1 as (k1 & K1). destruct (front_focus l n f k1 k2 wl d x0 K1 K2 IX NP LM EX) as (a & G & DZ & FC).
  destruct (train_collimates asort AS [l] [s] d b comps ltac:(constructor; [exact OK|constructor]) ltac:(constructor; [exact MS|constructor]) SC PE wl x0 a [1; n; 1]) with (ey := ey) (ez := ez) (h0 := h0) (u0 := u0) (eps := eps) as (dl & DP & Q); auto.
  { cbn [in_line]. split; assumption. }
  exists dl. split; [exact DP|]. intros y Y gen h tr fuel tr' i c PR LIM TR N RC CI CW.
  destruct (Q y Y gen h tr fuel tr' i c PR LIM TR N RC CI CW) as (rows & w & C & S & E & SU & TI & CP & HB).
  exists rows, w, C, S. do 4 (split; [assumption|]).
  assert (FN : f <> 0) by (intros ->; lra). assert (ME : mC a = - / f) by (apply (Rmult_eq_reg_l f); [rewrite FC; field; exact FN|exact FN]).
  rewrite ME in HB. replace (S + h0 * y / f) with (S - - / f * (h0 * y)) by (field; exact FN). exact HB.
Qed.

(** ** The focus does not depend on the screen. *)
Lemma gaussian_screen : forall wl d d' x0 ls a a' ns ns', gaussian wl d x0 ls a ns -> gaussian wl d' x0 ls a' ns' -> a' = m2_mul (travel (d' - d)) a.
Proof.
  intros wl d d' x0 ls a a' ns ns' G. revert a' ns'. induction G as [x|x l ls k1 k2 n a ns K1 K2 IX NP G IH]; intros a' ns' G'.
  - inversion G'; subst. unfold m2_mul, travel; cbn [mA mB mC mD]. f_equal; ring.
  - inversion G' as [|? ? ? k1' k2' n' a1 ns1 K1' K2' IX' NP' G1]; subst.
    rewrite (IH _ _ G1). rewrite (curvature_unique _ _ _ K1' K1), (curvature_unique _ _ _ K2' K2). rewrite IX in IX'. injection IX' as <-.
    generalize (m2_mul (lens_matrix k1 k2 n (l_t l)) (travel (front_of l - x))). intros [ma mb mc md]. destruct a as [aa ab ac ad]. unfold m2_mul, travel; cbn [mA mB mC mD]. f_equal; ring.
Qed.
Theorem focus_without_screen : forall wl d d' x0 ls a a' ns ns' h u, gaussian wl d x0 ls a ns -> gaussian wl d' x0 ls a' ns' -> slope_of a h u <> 0 ->
  d' - height_of a' h u / slope_of a' h u = d - height_of a h u / slope_of a h u.
Proof.
  intros wl d d' x0 ls a a' ns ns' h u G G' SN. rewrite (gaussian_screen _ _ _ _ _ _ _ _ _ G G'). destruct a as [aa ab ac ad]. unfold slope_of, height_of, m2_mul, travel in *; cbn [mA mB mC mD] in *. field. intuition lra.
Qed.
