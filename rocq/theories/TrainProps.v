(** * TrainProps: several lenses on one axis and a screen behind them *)
From Coq Require Import Reals Lra Lia List Bool ZArith Permutation Psatz.
Import ListNotations.
From Verif Require Import XR XRFacts Arr Lin LinFacts Ops OpsFacts SpecOptics Prim Csg Surf SpecGeom SpecTree CsgProps
  World SpecWorld Tracer SpecTrace TraceFacts7 TraceFacts8 MotionFacts2 Components SpecComponents Paraxial AxisRays
  LensAxis LensAxis2 SpecUtils SpecGauss SpecTrain GaussProps TrainFacts.
Open Scope R_scope.

Lemma hat_mdir : forall ey ez dx dy, ey * ey + ez * ez = 1 -> dx * dx + dy * dy = 1 -> hat (trim (mdir ey ez dx dy)) = V4 dx (dy * ey) (dy * ez) 0.
Proof.
  intros ey ez dx dy E U. unfold hat, trim, mdir, vset_w, vnorm, vdot, vscale; cbn [vx vy vz vw].
  replace (dx * dx + dy * ey * (dy * ey) + dy * ez * (dy * ez) + 0 * 0) with 1.
  - rewrite sqrt_1, Rinv_1. f_equal; ring.
  - transitivity (dx * dx + dy * dy * (ey * ey + ez * ez)); [rewrite E, Rmult_1_r; symmetry; exact U|ring].
Qed.
Section Train.
  Variable asort : list xr -> list nat.
  Hypothesis AS : argsort_ok asort.
  Variables ey ez : R.
  Hypothesis EU : ey * ey + ez * ez = 1.
  Variables (g : surf) (bx : box) (w l d wl : R).
  Hypothesis PG : s_prim g = PPlane w l.
  Hypothesis PW : 0 < w.
  Hypothesis PL : 0 < l.
  Hypothesis PM : s_mat g = Absorber.
  Hypothesis PO : s_obj g = M4 (V4 0 0 (-1) 0) (V4 0 1 0 0) (V4 1 0 0 (- d)) (V4 0 0 0 1).
  Variable comps : list shape.

  Lemma plane_met : forall X Y DX DY x h u, paraxial X Y DX DY x h u ->
    ev (fun y => surf_hits g (mray ey ez (X y) (Y y) (DX y) (DY y)) = [Fin (plane_time X DX d y); Fin (plane_time X DX d y)]).
  Proof. intros X Y DX DY x h u P. exact (ev_screen ey ez EU g w l d PG PW PL PO X Y DX DY x h u P). Qed.
  Lemma plane_clear : forall X Y DX DY x h u (T : R -> R) q, paraxial X Y DX DY x h u -> lim T (q - x) -> q < d ->
    ev (fun y => clear_of asort (Leaf g bx) (mray ey ez (X y) (Y y) (DX y) (DY y)) (T y)).
  Proof.
    intros X Y DX DY x h u T q P LT Q. eapply ev_impl; [|exact (ev_and _ _ (plane_met X Y DX DY x h u P) (lim_lt2 _ _ _ _ LT (lim_plane _ _ _ _ _ _ _ P d) ltac:(lra)))].
    cbv beta. intros y _ (H & L). exact (clear_plane asort _ _ _ _ _ H L).
  Qed.
  Lemma line_ahead : forall (ps : list (lens * shape)) x, (forall l s, In (l, s) ps -> placed l s) -> in_line x (map fst ps) d -> x < d /\ forall l s, In (l, s) ps -> x < front_of l.
  Proof.
    assert (OP : 0 < ray_offset_value) by (unfold ray_offset_value; lra).
    induction ps as [|[l0 s0] ps IH]; intros x PS LI; cbn [map fst in_line] in LI; [split; [exact LI|intros l1 s1 []]|].
    destruct LI as (F & LI). destruct (IH _ (fun l1 s1 I => PS l1 s1 (or_intror I)) LI) as (B1 & B2).
    assert (front_of l0 < back_of l0). { pose proof (lens_radii l0 (proj1 (PS l0 s0 (or_introl eq_refl)))) as (_ & _ & _ & _ & T). rewrite lens_depth. lra. }
    split; [lra|]. intros l1 s1 [E|I]; [injection E as <- <-; exact F|]. specialize (B2 l1 s1 I). lra.
  Qed.

  Definition lands (H C S : R -> R) (ns : list R) (X Y DX DY : R -> R) (y : R) : Prop :=
    0 < C y /\ C y * C y + S y * S y = 1 /\ forall limit gen int id, (Z.of_nat gen + Z.of_nat (length ns) <= limit)%Z -> exists rows w0,
    history asort comps (flat_map surface_ids comps) limit gen (Col (mray ey ez (X y) (Y y) (DX y) (DY y)) gen int wl 1 id) (rows ++ [w0]) /\
    map row_idx (rows ++ [w0]) = ns /\ row_surf w0 = s_id g /\ row_end w0 = V4 d (H y * ey) (H y * ez) 0 /\
    row_tilt w0 = V4 (C y) (S y * ey) (S y * ez) 0.

  Lemma train_history : forall rest past X Y DX DY x x' h u a ns,
    (forall l s, In (l, s) (past ++ rest) -> placed l s) -> Permutation comps (Leaf g bx :: map snd (past ++ rest)) ->
    paraxial X Y DX DY x (h + (x - x') * u) u -> (forall l s, In (l, s) past -> back_of l < x) -> in_line x (map fst rest) d ->
    gaussian wl d x' (map fst rest) a ns ->
    exists H C S, lim (fun y => H y / y) (height_of a h u) /\ lim C 1 /\ lim (fun y => S y / y) (slope_of a h u) /\ ev (lands H C S ns X Y DX DY).
  Proof.
    assert (OP : 0 < ray_offset_value) by (unfold ray_offset_value; lra).
    induction rest as [|[l0 s0] rest IH]; intros past X Y DX DY x x' h u a ns PS PE P BP LI G.
    - cbn [map in_line] in *. inversion G; subst. clear G. rewrite app_nil_r in PS, PE.
      exists (fun y => Y y + plane_time X DX d y * DY y), DX, DY. pose proof (lim_plane _ _ _ _ _ _ _ P d) as LP. split; [|split; [exact (proj1 (proj2 (proj2 P)))|split]].
      + pose proof (par_step _ _ _ _ _ _ _ P _ _ LP) as (_ & Q & _). eapply lim_to; [|exact Q]. unfold height_of, travel; cbn [mA mB]. ring.
      + pose proof P as (_ & _ & _ & Q & _). eapply lim_to; [|exact Q]. unfold slope_of, travel; cbn [mC mD]. ring.
      + pose proof (others_clear asort AS ey ez EU X Y DX DY x _ _ P (plane_time X DX d) d past LP (fun l1 s1 I => conj (PS l1 s1 I) (or_introl (BP l1 s1 I)))) as CL.
        eapply ev_impl; [|exact (ev_and _ _ CL (ev_and _ _ (plane_met X Y DX DY x _ _ P) (ev_and _ _ (lim_gt _ _ 0 LP ltac:(lra)) (ev_and _ _ (ev_dx _ _ _ _ _ _ _ P) (par_unit _ _ _ _ _ _ _ P)))))].
        cbv beta. intros y _ (C & PH & T0 & DP & U). split; [lra|]. split; [exact U|]. intros limit gen int id LM. cbn [length] in LM.
        pose proof (screen_first asort comps g bx _ _ _ PE C PH T0) as F.
        pose proof (absorbed_leg asort ey ez EU comps g bx limit gen _ _ _ _ int wl 1 id _ ltac:(right; lia) U (Permutation_in _ (Permutation_sym PE) (or_introl eq_refl)) F PM) as HI.
        exists []. eexists. split; [exact HI|]. split; [reflexivity|]. split; [reflexivity|]. split.
        * cbn [row_end]. unfold trim, mpt, pt, vset_w; cbn [vx vy vz vw]. f_equal. unfold plane_time. field. lra.
        * cbn [row_tilt]. apply hat_mdir; assumption.
    - cbn [map fst in_line] in *. destruct LI as (FR & LI). inversion G as [|? ? ? k1 k2 n a' ns' K1 K2 IX NP G' E1 E2 E3 E4]; subst. clear G.
      assert (PL0 : placed l0 s0) by (apply PS; apply in_or_app; right; left; reflexivity). pose proof (proj1 PL0) as OK.
      destruct (lens_radii l0 OK) as (A1 & B1 & A2 & B2 & OT). pose proof (lens_depth l0) as FB.
      assert (PR : forall l1 s1, In (l1, s1) rest -> placed l1 s1) by (intros; apply PS; apply in_or_app; right; right; assumption).
      assert (PP : forall l1 s1, In (l1, s1) past -> placed l1 s1) by (intros; apply PS; apply in_or_app; left; assumption).
      destruct (line_ahead rest _ PR LI) as (DB & RB).
      set (pf := front_of l0) in *. set (pb := back_of l0) in *.
      set (X1 := fx X Y DX DY (l_r1 l0) pf). set (Y1 := fy X Y DX DY (l_r1 l0) pf).
      set (E1 := gx X Y DX DY (l_r1 l0) pf (-1) 1 n). set (F1 := gy X Y DX DY (l_r1 l0) pf (-1) 1 n).
      set (X2 := fun y => X1 y + ray_offset_value * E1 y). set (Y2 := fun y => Y1 y + ray_offset_value * F1 y).
      set (X3 := fx X2 Y2 E1 F1 (l_r2 l0) pb). set (Y3 := fy X2 Y2 E1 F1 (l_r2 l0) pb).
      set (E2 := gx X2 Y2 E1 F1 (l_r2 l0) pb 1 n n). set (F2 := gy X2 Y2 E1 F1 (l_r2 l0) pb 1 n n).
      set (X4 := fun y => X3 y + ray_offset_value * E2 y). set (Y4 := fun y => Y3 y + ray_offset_value * F2 y).
      set (h1 := h + (pf - x') * u). set (u1 := 1 / n * u + (1 / n - 1) * (curv (l_r1 l0) * h1)).
      set (h3 := h1 + l_t l0 * u1). set (u2 := n / 1 * u1 + (n / 1 - 1) * (curv (l_r2 l0) * h3)).
      assert (P1 : paraxial X1 Y1 E1 F1 pf h1 u1).
      { pose proof (face_bend X Y DX DY x _ u P (l_r1 l0) pf A1 A2 (-1) 1 n) as Q. unfold nout in Q. replace (rltb 0 (-1)) with false in Q by (symmetry; apply rltb_false; lra).
        replace (h + (x - x') * u + (pf - x) * u) with h1 in Q by (unfold h1; ring). exact Q. }
      assert (P2 : paraxial X2 Y2 E1 F1 (pf + ray_offset_value) (h1 + ray_offset_value * u1) u1) by exact (par_step _ _ _ _ _ _ _ P1 (fun _ => ray_offset_value) _ (lim_const _)).
      assert (P3 : paraxial X3 Y3 E2 F2 pb h3 u2).
      { pose proof (face_bend X2 Y2 E1 F1 _ _ _ P2 (l_r2 l0) pb B1 B2 1 n n) as Q. unfold nout in Q. replace (rltb 0 1) with true in Q by (symmetry; apply rltb_true; lra).
        replace (h1 + ray_offset_value * u1 + (pb - (pf + ray_offset_value)) * u1) with h3 in Q by (unfold h3; rewrite FB; ring). exact Q. }
      assert (P4 : paraxial X4 Y4 E2 F2 (pb + ray_offset_value) (h3 + ray_offset_value * u2) u2) by exact (par_step _ _ _ _ _ _ _ P3 (fun _ => ray_offset_value) _ (lim_const _)).
      replace (h3 + ray_offset_value * u2) with (h3 + (pb + ray_offset_value - pb) * u2) in P4 by ring.
      destruct (IH (past ++ [(l0, s0)]) X4 Y4 E2 F2 (pb + ray_offset_value) pb h3 u2 a' ns') as (H & C & S & LH & LC & LS & EV).
      { intros l1 s1 I. apply PS. rewrite <- app_assoc in I. exact I. }
      { rewrite <- app_assoc. exact PE. }
      { exact P4. }
      { intros l1 s1 I. apply in_app_or in I. destruct I as [I|[E|[]]]; [specialize (BP l1 s1 I); lra|injection E as <- <-; unfold pb; lra]. }
      { exact LI. }
      { exact G'. }
      exists H, C, S. split; [|split; [exact LC|split]].
      + eapply lim_to; [|exact LH]. rewrite <- (curv_curvature _ _ K1), <- (curv_curvature _ _ K2).
        unfold height_of, u2, h3, u1, h1. unfold m2_mul, lens_matrix, m2_mul, travel, cross. cbn [mA mB mC mD]. field. lra.
      + eapply lim_to; [|exact LS]. rewrite <- (curv_curvature _ _ K1), <- (curv_curvature _ _ K2).
        unfold slope_of, u2, h3, u1, h1. unfold m2_mul, lens_matrix, m2_mul, travel, cross. cbn [mA mB mC mD]. field. lra.
      + set (others := past ++ rest).
        assert (PE0 : Permutation comps (s0 :: Leaf g bx :: map snd others)).
        { rewrite PE. rewrite map_app. cbn [map snd]. transitivity (Leaf g bx :: s0 :: map snd others); [|constructor].
          constructor. unfold others. rewrite map_app. symmetry. apply Permutation_middle. }
        pose proof (lim_Tf X Y DX DY x _ u P l0 OK) as T1. fold pf in T1.
        pose proof (lim_Tf X2 Y2 E1 F1 _ _ _ P2 l0 OK) as T2. pose proof (lim_Tb X2 Y2 E1 F1 _ _ _ P2 l0 OK) as T3. fold pf in T2. fold pb in T3.
        assert (C1 : ev (fun y => forall s, In s (map snd others) -> clear_of asort s (mray ey ez (X y) (Y y) (DX y) (DY y)) (Tf X Y DX DY l0 y))).
        { apply (others_clear asort AS ey ez EU X Y DX DY x _ _ P _ pf); [exact T1|]. intros l1 s1 I. apply in_app_or in I. destruct I as [I|I]; (split; [auto|]).
          - left. exact (BP l1 s1 I).
          - right. specialize (RB l1 s1 I). lra. }
        assert (C2 : ev (fun y => forall s, In s (map snd others) -> clear_of asort s (mray ey ez (X2 y) (Y2 y) (E1 y) (F1 y)) (Tb X2 Y2 E1 F1 l0 y))).
        { apply (others_clear asort AS ey ez EU X2 Y2 E1 F1 _ _ _ P2 _ pb); [exact T3|]. intros l1 s1 I. apply in_app_or in I. destruct I as [I|I]; (split; [auto|]).
          - left. specialize (BP l1 s1 I). lra.
          - right. specialize (RB l1 s1 I). lra. }
        pose proof (plane_clear X Y DX DY x _ _ _ pf P T1 ltac:(lra)) as D1.
        pose proof (plane_clear X2 Y2 E1 F1 _ _ _ _ pb P2 T3 ltac:(lra)) as D2.
        pose proof (lens_met asort AS ey ez EU X Y DX DY x _ u P l0 s0 PL0) as L1.
        pose proof (lens_met asort AS ey ez EU X2 Y2 E1 F1 _ _ _ P2 l0 s0 PL0) as L2. fold pf pb in L1, L2.
        pose proof (face_refract ey ez EU X Y DX DY x _ u P (l_r1 l0) pf A1 A2 (-1) 1 n ltac:(auto) NP) as R1.
        pose proof (face_refract ey ez EU X2 Y2 E1 F1 _ _ _ P2 (l_r2 l0) pb B1 B2 1 n n ltac:(auto) NP) as R2.
        unfold nout in R1, R2. replace (rltb 0 (-1)) with false in R1 by (symmetry; apply rltb_false; lra). replace (rltb 0 1) with true in R2 by (symmetry; apply rltb_true; lra).
        assert (Q1 : ev (fun y => 0 < Tf X Y DX DY l0 y)) by (apply (lim_gt _ _ 0 T1); lra).
        assert (Q2 : ev (fun y => Tf X2 Y2 E1 F1 l0 y < 0)) by (apply (lim_lt _ _ 0 T2); lra).
        assert (Q3 : ev (fun y => 0 < Tb X2 Y2 E1 F1 l0 y)) by (apply (lim_gt _ _ 0 T3); lra).
        eapply ev_impl; [|exact (ev_and _ _ (ev_and _ _ L1 L2) (ev_and _ _ (ev_and _ _ (ev_and _ _ C1 D1) (ev_and _ _ C2 D2)) (ev_and _ _ (ev_and _ _ R1 R2)
          (ev_and _ _ (ev_and _ _ Q1 (ev_and _ _ Q2 Q3)) (ev_and _ _ (par_unit _ _ _ _ _ _ _ P) (ev_and _ _ (par_unit _ _ _ _ _ _ _ P2) EV))))))].
        clear L1 L2 C1 D1 C2 D2 R1 R2 Q1 Q2 Q3 EV T1 T2 T3.
        cbv beta. intros y _ ((L1 & L2) & ((C1 & D1) & C2 & D2) & (R1 & R2) & (Q1 & Q2 & Q3) & U1 & U2 & (CP & CU & EV)). split; [exact CP|]. split; [exact CU|]. intros limit gen int id LM.
        cbn [length] in LM.
        destruct L1 as (i1 & j1 & CH1 & AC1 & _). destruct L2 as (i2 & j2 & CH2 & _ & AC2). unfold pray in CH1, CH2. unfold at_time in AC1, AC2.
        assert (IS : In s0 comps) by (apply (Permutation_in _ (Permutation_sym PE0)); left; reflexivity).
        assert (O1 : forall s', In s' (Leaf g bx :: map snd others) -> clear_of asort s' (mray ey ez (X y) (Y y) (DX y) (DY y)) (Tf X Y DX DY l0 y)) by (intros s' [<-|I]; [exact D1|exact (C1 s' I)]).
        pose proof (enter_first asort comps s0 _ _ _ _ _ _ PE0 O1 CH1 Q1) as H1.
        assert (O2 : forall s', In s' (Leaf g bx :: map snd others) -> clear_of asort s' (mray ey ez (X2 y) (Y2 y) (E1 y) (F1 y)) (Tb X2 Y2 E1 F1 l0 y)) by (intros s' [<-|I]; [exact D2|exact (C2 s' I)]).
        pose proof (leave_first asort comps s0 _ _ _ _ _ _ PE0 O2 CH2 (Rlt_le _ _ Q2) Q3) as H2.
        destruct (EV limit (Datatypes.S (Datatypes.S gen)) int id ltac:(lia)) as (rows & w0 & HI & MI & SU & EN & TI).
        eexists (_ :: _ :: rows), w0. cbn [app]. split; [|split; [|split; [exact SU|split; [exact EN|exact TI]]]].
        * eapply refracted_leg with (index_at := l_index l0) (s := s0); [exact EU|right; lia|exact U1|exact IS|exact H1|exact AC1|exact IX|exact R1|].
          eapply refracted_leg with (index_at := l_index l0) (s := s0); [exact EU|right; lia|exact U2|exact IS|exact H2|exact AC2|exact IX|exact R2|].
          exact HI.
        * cbn [map row_idx]. rewrite MI. reflexivity.
  Qed.
End Train.

Theorem lens_trains_slopes : forall asort, argsort_ok asort -> forall ls ss d b comps, Forall lens_ok ls -> Forall2 (fun l s => made asort (lens_call l) s) ls ss ->
  screen_at d b -> Permutation comps (b :: ss) ->
  forall wl x0 a ns, in_line x0 ls d -> gaussian wl d x0 ls a ns ->
  forall ey ez h0 u0, ey * ey + ez * ez = 1 -> forall eps, 0 < eps -> exists delta, 0 < delta /\
  forall y, 0 < Rabs y < delta ->
  forall gen h tr fuel tr' i c, proper gen h tr comps -> (Z.of_nat (length ns) <= t_limit tr)%Z -> trace asort h gen fuel tr = TOk tr' ->
    nth_error (source_rays gen tr) i = Some c -> c_ray c = sloped ey ez x0 (h0 * y) (u0 * y) -> c_idx c = 1 -> c_wl c = wl ->
  exists rows w H C S, rows_with_id i (f_rows (get_results tr')) = rows ++ [w] /\ map row_idx (rows ++ [w]) = ns /\
    In (row_surf w) (map s_id (surface_ids b)) /\ row_end w = V4 d (H * ey) (H * ez) 0 /\ row_tilt w = V4 C (S * ey) (S * ez) 0 /\ 0 < C /\ C * C + S * S = 1 /\
    Rabs (H / y - height_of a h0 u0) < eps /\ Rabs (C - 1) < eps /\ Rabs (S / y - slope_of a h0 u0) < eps.
Proof.
  intros asort AS ls ss d b comps OKS MS (g & bx & w & l & -> & PG & PW & PL & PM & PS) PE wl x0 a ns LI G ey ez h0 u0 EU eps EP0.
  assert (W : s_obj g = M4 (V4 0 0 (-1) 0) (V4 0 1 0 0) (V4 1 0 0 (- d)) (V4 0 0 0 1) \/ ~ is_inverse (s_world g) (s_obj g)).
  { destruct (Classical_Prop.classic (is_inverse (s_world g) (s_obj g))) as [I|I]; [left; apply screen_object; auto|right; exact I]. }
  assert (IB : In g (flat_map surface_ids comps)).
  { apply in_flat_map. exists (Leaf g bx). split; [apply (Permutation_in _ (Permutation_sym PE)); left; reflexivity|left; reflexivity]. }
  destruct W as [PO|NI].
  2:{ exists 1. split; [lra|]. intros y _ gen h tr fuel tr' i c (_ & _ & _ & _ & PP) _ _ _. exfalso. apply NI. apply (PP g IB). }
  assert (PT : exists ps, map fst ps = ls /\ map snd ps = ss /\ forall l s, In (l, s) ps -> placed l s).
  { clear - AS OKS MS. induction MS as [|l0 s0 ls ss M MS IH]; [exists []; split; [reflexivity|split; [reflexivity|intros l1 s1 []]]|].
    inversion OKS as [|? ? OK OKS']; subst. destruct (IH OKS') as (ps & <- & <- & H). exists ((l0, s0) :: ps). split; [reflexivity|]. split; [reflexivity|].
    intros l1 s1 [E|I]; [injection E as <- <-; exact (made_placed asort l0 s0 AS OK M)|exact (H l1 s1 I)]. }
  destruct PT as (ps & <- & <- & PLS).
  assert (P : paraxial (fun _ => x0) (fun y => h0 * y) (fun y => / sqrt (1 + u0 * y * (u0 * y))) (fun y => u0 * y / sqrt (1 + u0 * y * (u0 * y))) x0 (h0 + (x0 - x0) * u0) u0).
  { replace (h0 + (x0 - x0) * u0) with h0 by ring. apply sloped_paraxial. }
  destruct (train_history asort AS ey ez EU g bx w l d wl PG PW PL PM PO comps ps [] _ _ _ _ x0 x0 h0 u0 a ns PLS PE P) as (H & C & S & LH & LC & LS & EV); [intros ? ? []|exact LI|exact G|].
  pose proof (ev_and _ _ (proj1 (lim_ev _ _) LH eps EP0) (ev_and _ _ (proj1 (lim_ev _ _) LC eps EP0) (proj1 (lim_ev _ _) LS eps EP0))) as L6.
  destruct (ev_and _ _ EV L6) as (dl & DP & Q). exists dl. split; [exact DP|].
  intros y (YP & YD) gen h tr fuel tr' i c PR LM TR N RC CI CW. destruct (Q y YP YD) as ((CP & CU & Q1) & Q2 & Q3 & Q4). clear Q EV L6 LH LC LS.
  destruct (Q1 (t_limit tr) 0%nat (c_int c) i) as (rows & w0 & HI & MI & SU & EN & TI); [lia|]. clear Q1.
  exists rows, w0, (H y), (C y), (S y). split; [|split; [exact MI|split; [|repeat (split; [assumption|]); assumption]]].
  - pose proof (scene_histories asort AS _ _ _ _ _ _ TR (proj1 PR) i c N) as H'.
    refine (history_unique asort _ _ _ _ _ _ _ HI _ _); [exact (proj2 (proj2 (proj1 PR)))|].
    replace (Col (mray ey ez x0 (h0 * y) (/ sqrt (1 + u0 * y * (u0 * y))) (u0 * y / sqrt (1 + u0 * y * (u0 * y)))) 0 (c_int c) wl 1 i) with (with_id i c); [exact H'|].
    destruct PR as (_ & _ & _ & PG' & _). destruct (PG' c (nth_error_In _ _ N)) as (_ & G0).
    unfold with_id. rewrite RC, G0, CW, CI. reflexivity.
  - rewrite SU. cbn [surface_ids map]. left. reflexivity.
Qed.
Theorem lens_trains : forall asort, argsort_ok asort -> forall ls ss d b comps, Forall lens_ok ls -> Forall2 (fun l s => made asort (lens_call l) s) ls ss ->
  screen_at d b -> Permutation comps (b :: ss) ->
  forall wl x0 a ns, in_line x0 ls d -> gaussian wl d x0 ls a ns ->
  forall ey ez h0 u0, ey * ey + ez * ez = 1 -> forall eps, 0 < eps -> exists delta, 0 < delta /\
  forall y, 0 < Rabs y < delta ->
  forall gen h tr fuel tr' i c, proper gen h tr comps -> (Z.of_nat (length ns) <= t_limit tr)%Z -> trace asort h gen fuel tr = TOk tr' ->
    nth_error (source_rays gen tr) i = Some c -> c_ray c = sloped ey ez x0 (h0 * y) (u0 * y) -> c_idx c = 1 -> c_wl c = wl ->
  exists rows w H, rows_with_id i (f_rows (get_results tr')) = rows ++ [w] /\ map row_idx (rows ++ [w]) = ns /\
    In (row_surf w) (map s_id (surface_ids b)) /\ row_end w = V4 d (H * ey) (H * ez) 0 /\ Rabs (H / y - height_of a h0 u0) < eps.
Proof.
  intros asort AS ls ss d b comps OKS MS SC PE wl x0 a ns LI G ey ez h0 u0 EU eps EP0.
  destruct (lens_trains_slopes asort AS ls ss d b comps OKS MS SC PE wl x0 a ns LI G ey ez h0 u0 EU eps EP0) as (dl & DP & Q). exists dl. split; [exact DP|].
  intros y Y gen h tr fuel tr' i c PR LM TR N RC CI CW. destruct (Q y Y gen h tr fuel tr' i c PR LM TR N RC CI CW) as (rows & w & H & C & S & E & MI & SU & EN & _ & _ & _ & HB & _).
  exists rows, w, H. repeat (split; [assumption|]). assumption.
Qed.
