(** * GaussProps: a pencil of rays through a lens onto a screen *)
From Coq Require Import Reals Lra Lia List Bool ZArith Psatz.
Import ListNotations.
From Verif Require Import XR XRFacts Arr Lin LinFacts Ops OpsFacts SpecOptics Prim Csg Surf SpecGeom SpecTree CsgProps SpanFacts BoxFacts TreeFacts
  World SpecWorld WorldFacts3 Tracer SpecTrace TraceFacts7 TraceFacts8 MotionFacts2 Components SpecComponents BuildFacts ComponentFacts ComponentFacts2 ComponentOptics SymmetryComponents
  Utils SpecUtils UtilProps Chords Paraxial AxisRays LensAxis SpecGauss LensAxis2.
Open Scope R_scope.

Section Face.
  Variables ey ez : R.
  Hypothesis EU : ey * ey + ez * ez = 1.
  Variables X Y DX DY : R -> R.
  Variables x h u : R.
  Hypothesis P : paraxial X Y DX DY x h u.
  Variable r : xr.
  Variable p : R.
  Hypothesis NN : r <> NaN.
  Hypothesis NZ : forall q, r = Fin q -> q <> 0.
  Definition fx (y : R) : R := X y + ftime X Y DX DY r p y * DX y.
  Definition fy (y : R) : R := Y y + ftime X Y DX DY r p y * DY y.
  Definition fc (y : R) : R := fcos r p (fx y).
  Lemma face_par : paraxial fx fy DX DY p (h + (p - x) * u) u.
  Proof.
    pose proof (par_step _ _ _ _ _ _ _ P _ _ (lim_ftime X Y DX DY x h u P r p NN NZ)) as Q. replace (x + (p - x)) with p in Q by ring. exact Q.
  Qed.
  Lemma face_cos : lim fc 1.
  Proof.
    unfold fc, fcos. apply (lim_to _ (1 - curv r * (p - p))); [ring|]. apply lim_sub; [apply lim_const|]. apply lim_scal.
    apply lim_sub; [exact (par_X _ _ _ _ _ _ _ face_par)|apply lim_const].
  Qed.
  Lemma face_unit : ev (fun y => fc y * fc y + curv r * fy y * (curv r * fy y) = 1).
  Proof.
    unfold fc, fcos, fx, fy, ftime. destruct r as [q| | |]; cbn [curv]; [|apply ev_all; intros; ring..]. specialize (NZ q eq_refl).
    eapply ev_impl; [|apply ev_and; [exact (par_unit _ _ _ _ _ _ _ P)|apply (lim_gt _ _ 0 (lim_chord _ _ _ _ _ _ _ P (p + q) q)); nra]].
    cbv beta. intros y _ (U & G). set (sg := if rltb 0 q then -1 else 1).
    assert (SG : sg = 1 \/ sg = -1) by (unfold sg; destruct (rltb 0 q); auto).
    pose proof (btime_on sg (X y) (Y y) (DX y) (DY y) (p + q) q SG U (Rlt_le _ _ G)) as B. cbv zeta in B.
    change (btime sg (X y) (Y y) (DX y) (DY y) (p + q) q) with (ball_time X Y DX DY sg (p + q) q y) in B.
    set (T := ball_time X Y DX DY sg (p + q) q y) in *. clearbody T.
    transitivity (((X y + T * DX y - (p + q)) * (X y + T * DX y - (p + q)) + (Y y + T * DY y) * (Y y + T * DY y)) * (/ q * / q)); [field; exact NZ|].
    rewrite B. field. exact NZ.
  Qed.
  Variables sg n1 n2 : R.
  Hypothesis SG : sg = -1 \/ sg = 1.
  Hypothesis N2 : 0 < n2.
  Definition nout : R := if rltb 0 sg then 1 else n2.
  Definition gx (y : R) : R := bent_x fy DX DY fc (curv r) n1 nout y.
  Definition gy (y : R) : R := bent_y fy DX DY fc (curv r) n1 nout y.
  Lemma face_bend : paraxial fx fy gx gy p (h + (p - x) * u) (n1 / nout * u + (n1 / nout - 1) * (curv r * (h + (p - x) * u))).
  Proof. exact (par_bend _ _ _ _ _ _ _ face_par fc (curv r) n1 nout face_cos face_unit). Qed.
  Lemma face_refract : ev (fun y => refract (mdir ey ez (DX y) (DY y)) (fnorm ey ez sg r p (fx y) (fy y)) n1 n2 1 = Some (mdir ey ez (gx y) (gy y), nout)).
  Proof.
    eapply ev_impl; [|apply ev_and; [exact (par_unit _ _ _ _ _ _ _ P)|apply ev_and; [exact (par_unit _ _ _ _ _ _ _ face_bend)|apply ev_and;
      [apply (lim_gt _ _ 0 (lim_cos _ _ _ _ _ _ _ face_par fc (curv r) face_cos)); lra
      |apply (lim_gt _ _ 0 (lim_cos_sq _ _ _ _ _ _ _ face_par fc (curv r) n1 nout face_cos)); lra]]]].
    cbv beta. intros y _ (U & UB & C1 & C2).
    replace (fnorm ey ez sg r p (fx y) (fy y)) with (mdir ey ez (sg * fc y) (- sg * (curv r * fy y))) by reflexivity.
    assert (NO : nout <> 0) by (unfold nout; destruct (rltb 0 sg); lra).
    exact (refract_plane ey ez EU sg (DX y) (DY y) (fc y) (curv r * fy y) n1 n2 1 SG U C1 NO C2 UB).
  Qed.
End Face.

Section Legs.
  Variable asort : list xr -> list nat.
  Variables ey ez : R.
  Hypothesis EU : ey * ey + ez * ez = 1.
  Lemma unit_going : forall x y dx dy g i w n k, dx * dx + dy * dy = 1 -> ~ stopped (Col (mray ey ez x y dx dy) g i w n k).
  Proof.
    intros x y dx dy g i w n k U S. unfold stopped, vnorm in S. cbn [c_ray mray direction] in S. rewrite (mdir_dot ey ez EU), U, sqrt_1 in S. unfold atol in S. lra.
  Qed.
  Lemma forward_mray : forall t x y dx dy g i w n k,
    forward t (Col (mray ey ez x y dx dy) g i w n k) = Col (mray ey ez (x + t * dx) (y + t * dy) dx dy) g i w n k.
  Proof.
    intros. unfold forward, with_ray, mray, mpt, mdir, pt. cbn [c_ray origin direction c_gen c_int c_wl c_idx c_id]. unfold vadd, vscale; cbn [vx vy vz vw]. f_equal. f_equal. f_equal; ring.
  Qed.
  Lemma leg_through : forall s b limit index_at g x y dx dy int wl idx id t i n n2 ex ey' n3 rows,
    (g = O \/ Z.of_nat g <> limit) -> dx * dx + dy * dy = 1 ->
    first_hit asort [s; b] (mray ey ez x y dx dy) t i -> acts (Refractor index_at) s i (mpt ey ez (x + t * dx) (y + t * dy)) n ->
    index_at wl = Fin n2 -> refract (mdir ey ez dx dy) n idx n2 1 = Some (mdir ey ez ex ey', n3) ->
    history asort [s; b] (flat_map surface_ids [s; b]) limit (S g)
      (Col (mray ey ez (x + t * dx + ray_offset_value * ex) (y + t * dy + ray_offset_value * ey') ex ey') (S g) int wl n3 id) rows ->
    history asort [s; b] (flat_map surface_ids [s; b]) limit g (Col (mray ey ez x y dx dy) g int wl idx id)
      (Row g int wl idx id i (trim (mpt ey ez x y)) (trim (mpt ey ez (x + t * dx) (y + t * dy))) (hat (trim (mdir ey ez dx dy))) :: rows).
  Proof.
    intros s b limit index_at g x y dx dy int wl idx id t i n n2 ex ey' n3 rows L U F (f & IN & ID & MA & WN) IX RF H.
    set (c := Col (mray ey ez x y dx dy) g int wl idx id).
    set (c' := Col (mray ey ez (x + t * dx) (y + t * dy) ex ey') g int wl n3 id).
    change (history asort [s; b] (flat_map surface_ids [s; b]) limit g c (Row (c_gen c) (c_int c) (c_wl c) (c_idx c) (c_id c) i (trim (origin (c_ray c))) (trim (origin (c_ray c'))) (hat (trim (direction (c_ray c)))) :: rows)).
    apply History_hit with (t := t) (s := f); auto.
    - apply unit_going. exact U.
    - cbn [flat_map]. apply in_or_app. auto.
    - unfold c. rewrite forward_mray. unfold material_trace. rewrite MA. cbn [c_ray mray origin direction c_wl c_idx]. rewrite WN, IX. unfold world_index. rewrite RF. reflexivity.
    - unfold c', with_gen. cbn [c_ray c_int c_wl c_idx c_id]. rewrite forward_mray. exact H.
  Qed.
  Lemma leg_screen : forall s f bx limit g x y dx dy int wl idx id t,
    (g = O \/ Z.of_nat g <> limit) -> dx * dx + dy * dy = 1 ->
    first_hit asort [s; Leaf f bx] (mray ey ez x y dx dy) t (s_id f) -> s_mat f = Absorber ->
    history asort [s; Leaf f bx] (flat_map surface_ids [s; Leaf f bx]) limit g (Col (mray ey ez x y dx dy) g int wl idx id)
      [Row g int wl idx id (s_id f) (trim (mpt ey ez x y)) (trim (mpt ey ez (x + t * dx) (y + t * dy))) (hat (trim (mdir ey ez dx dy)))].
  Proof.
    intros s f bx limit g x y dx dy int wl idx id t L U F MA.
    set (c := Col (mray ey ez x y dx dy) g int wl idx id).
    set (c' := Col (Ray (mpt ey ez (x + t * dx) (y + t * dy)) zero4) g int wl idx id).
    change (history asort [s; Leaf f bx] (flat_map surface_ids [s; Leaf f bx]) limit g c [Row (c_gen c) (c_int c) (c_wl c) (c_idx c) (c_id c) (s_id f) (trim (origin (c_ray c))) (trim (origin (c_ray c'))) (hat (trim (direction (c_ray c))))]).
    apply History_hit with (t := t) (s := f); auto.
    - apply unit_going. exact U.
    - cbn [flat_map surface_ids]. apply in_or_app. right. left. reflexivity.
    - unfold c. rewrite forward_mray. unfold material_trace. rewrite MA. reflexivity.
    - apply History_stopped. left. unfold stopped, c', forward, with_gen, with_ray. cbn [c_ray direction]. unfold vnorm, vdot, zero4; cbn [vx vy vz vw].
      replace (0 * 0 + 0 * 0 + 0 * 0 + 0 * 0) with 0 by ring. rewrite sqrt_0. unfold atol. lra.
  Qed.
End Legs.

Section Gauss.
  Variable asort : list xr -> list nat.
  Hypothesis AS : argsort_ok asort.
  Variables ey ez : R.
  Hypothesis EU : ey * ey + ez * ez = 1.
  Variables (r1 r2 : xr) (t : R) (ap : aperture_arg) (index_at : R -> xr) (p : prim) (s : shape).
  Hypothesis A : ap_ok ap.
  Hypothesis CL : rim_clear ap.
  Hypothesis FIT : lens_fits r1 r2 t (reach ap).
  Hypothesis EP : create_aperture ap (t + front_depth r1 (reach ap) + back_depth r2 (reach ap)) = Some p.
  Hypothesis TO : tree_ok s.
  Hypothesis BC : boxes_current s.
  Hypothesis ER : erase s = lens_erased r1 r2 t (Refractor index_at) p ((back_depth r2 (reach ap) - front_depth r1 (reach ap)) / 2).
  Variables X Y DX DY : R -> R.
  Variables x h u : R.
  Hypothesis P : paraxial X Y DX DY x h u.
  Variables (g : surf) (bx : box) (w l d wl n : R).
  Hypothesis PG : s_prim g = PPlane w l.
  Hypothesis PW : 0 < w.
  Hypothesis PL : 0 < l.
  Hypothesis PM : s_mat g = Absorber.
  Hypothesis PO : s_obj g = M4 (V4 0 0 (-1) 0) (V4 0 1 0 0) (V4 1 0 0 (- d)) (V4 0 0 0 1).
  Hypothesis BEFORE : x < - (t / 2).
  Hypothesis BEHIND : t / 2 + ray_offset_value < d.
  Hypothesis IX : index_at wl = Fin n.
  Hypothesis NP : 0 < n.

  Lemma radii : r1 <> NaN /\ r2 <> NaN /\ (forall q, r1 = Fin q -> q <> 0) /\ (forall q, r2 = Fin q -> q <> 0) /\ ray_offset_value < t.
  Proof.
    destruct FIT as (R1 & R2 & T & _). repeat split; [destruct r1; [discriminate..|destruct R1]|destruct r2; [discriminate..|destruct R2]| | |unfold ray_offset_value; lra];
      intros q ->; [apply R1|apply R2].
  Qed.
  Definition screen_time (X DX : R -> R) (y : R) : R := (d - X y) / DX y.
  Lemma ev_screen : forall X Y DX DY x h u, paraxial X Y DX DY x h u ->
    ev (fun y => surf_hits g (mray ey ez (X y) (Y y) (DX y) (DY y)) = [Fin (screen_time X DX y); Fin (screen_time X DX y)]).
  Proof.
    clear X Y DX DY x h u P BEFORE. intros X Y DX DY x h u P.
    eapply ev_impl; [|apply ev_and; [exact (ev_thin X Y DX DY x h u P (w / 2) ltac:(lra))|exact (ev_thin X Y DX DY x h u P (l / 2) ltac:(lra))]].
    cbv beta. intros y _ ((D & T & Y1 & _) & (_ & _ & Y2 & _)). unfold screen_time. apply (screen_axis ey ez EU g w l); auto.
  Qed.

  Definition X1 := fx X Y DX DY r1 (- (t / 2)).
  Definition Y1 := fy X Y DX DY r1 (- (t / 2)).
  Definition E1 := gx X Y DX DY r1 (- (t / 2)) (-1) 1 n.
  Definition F1 := gy X Y DX DY r1 (- (t / 2)) (-1) 1 n.
  Definition X2 (y : R) := X1 y + ray_offset_value * E1 y.
  Definition Y2 (y : R) := Y1 y + ray_offset_value * F1 y.
  Definition X3 := fx X2 Y2 E1 F1 r2 (t / 2).
  Definition Y3 := fy X2 Y2 E1 F1 r2 (t / 2).
  Definition E2 := gx X2 Y2 E1 F1 r2 (t / 2) 1 n n.
  Definition F2 := gy X2 Y2 E1 F1 r2 (t / 2) 1 n n.
  Definition X4 (y : R) := X3 y + ray_offset_value * E2 y.
  Definition Y4 (y : R) := Y3 y + ray_offset_value * F2 y.
  Definition X5 (y : R) := X4 y + screen_time X4 E2 y * E2 y.
  Definition Y5 (y : R) := Y4 y + screen_time X4 E2 y * F2 y.

  Definition h1 : R := h + (- (t / 2) - x) * u.
  Definition u1 : R := 1 / n * u + (1 / n - 1) * (curv r1 * h1).
  Definition h3 : R := h1 + t * u1.
  Definition u2 : R := n / 1 * u1 + (n / 1 - 1) * (curv r2 * h3).
  Lemma par1 : paraxial X1 Y1 E1 F1 (- (t / 2)) h1 u1.
  Proof.
    destruct radii as (A1 & _ & A2 & _). pose proof (face_bend X Y DX DY x h u P r1 (- (t / 2)) A1 A2 (-1) 1 n) as Q.
    unfold nout in Q. replace (rltb 0 (-1)) with false in Q by (symmetry; apply rltb_false; lra). exact Q.
  Qed.
  Lemma par2 : paraxial X2 Y2 E1 F1 (- (t / 2) + ray_offset_value) (h1 + ray_offset_value * u1) u1.
  Proof. exact (par_step _ _ _ _ _ _ _ par1 (fun _ => ray_offset_value) _ (lim_const _)). Qed.
  Lemma par3 : paraxial X3 Y3 E2 F2 (t / 2) h3 u2.
  Proof.
    destruct radii as (_ & A1 & _ & A2 & _). pose proof (face_bend X2 Y2 E1 F1 _ _ _ par2 r2 (t / 2) A1 A2 1 n n) as Q.
    unfold nout in Q. replace (rltb 0 1) with true in Q by (symmetry; apply rltb_true; lra).
    replace (h1 + ray_offset_value * u1 + (t / 2 - (- (t / 2) + ray_offset_value)) * u1) with h3 in Q by (unfold h3; field). exact Q.
  Qed.
  Lemma par4 : paraxial X4 Y4 E2 F2 (t / 2 + ray_offset_value) (h3 + ray_offset_value * u2) u2.
  Proof. exact (par_step _ _ _ _ _ _ _ par3 (fun _ => ray_offset_value) _ (lim_const _)). Qed.
  Lemma lim_screen : forall X Y DX DY x h u, paraxial X Y DX DY x h u -> lim (screen_time X DX) (d - x).
  Proof. intros. eapply lim_plane; eauto. Qed.
  Lemma par5 : lim (fun y => Y5 y / y) (h3 + (d - t / 2) * u2).
  Proof.
    pose proof (par_step _ _ _ _ _ _ _ par4 _ _ (lim_screen _ _ _ _ _ _ _ par4)) as (_ & H & _).
    eapply lim_to; [|exact H]. ring.
  Qed.
  Lemma gauss_height : h3 + (d - t / 2) * u2 = height_of (gauss (curv r1) (curv r2) n t x d) h u.
  Proof.
    unfold height_of, gauss, lens_matrix, m2_mul, travel, cross, u2, h3, u1, h1. cbn [mA mB mC mD]. field. lra.
  Qed.

  Lemma gauss_history : ev (fun y => forall limit int id, (3 <= limit)%Z -> exists w0 w1 w2,
    history asort [s; Leaf g bx] (flat_map surface_ids [s; Leaf g bx]) limit 0 (Col (mray ey ez (X y) (Y y) (DX y) (DY y)) 0 int wl 1 id) [w0; w1; w2] /\
    row_idx w0 = 1 /\ row_idx w1 = n /\ row_idx w2 = 1 /\ row_surf w2 = s_id g /\ row_end w2 = V4 d (Y5 y * ey) (Y5 y * ez) 0).
  Proof.
    destruct radii as (A1 & B1 & A2 & B2 & OT). assert (OP : 0 < ray_offset_value) by (unfold ray_offset_value; lra).
    pose proof (lens_faces asort AS ey ez EU (Refractor index_at) X Y DX DY x h u P s r1 r2 t ap p A CL FIT EP TO BC ER) as L1.
    pose proof (lens_faces asort AS ey ez EU (Refractor index_at) X2 Y2 E1 F1 _ _ _ par2 s r1 r2 t ap p A CL FIT EP TO BC ER) as L2.
    pose proof (lens_faces asort AS ey ez EU (Refractor index_at) X4 Y4 E2 F2 _ _ _ par4 s r1 r2 t ap p A CL FIT EP TO BC ER) as L3.
    cbv zeta in L1, L2, L3.
    pose proof (ev_screen _ _ _ _ _ _ _ P) as S1. pose proof (ev_screen _ _ _ _ _ _ _ par2) as S2. pose proof (ev_screen _ _ _ _ _ _ _ par4) as S3.
    pose proof (lim_ftime _ _ _ _ _ _ _ P r1 (- (t / 2)) A1 A2) as T1.
    pose proof (lim_ftime _ _ _ _ _ _ _ par2 r1 (- (t / 2)) A1 A2) as T2. pose proof (lim_ftime _ _ _ _ _ _ _ par2 r2 (t / 2) B1 B2) as T3.
    pose proof (lim_ftime _ _ _ _ _ _ _ par4 r2 (t / 2) B1 B2) as T4.
    pose proof (face_refract ey ez EU X Y DX DY x h u P r1 (- (t / 2)) A1 A2 (-1) 1 n ltac:(auto) NP) as R1.
    pose proof (face_refract ey ez EU X2 Y2 E1 F1 _ _ _ par2 r2 (t / 2) B1 B2 1 n n ltac:(auto) NP) as R2.
    unfold nout in R1, R2. replace (rltb 0 (-1)) with false in R1 by (symmetry; apply rltb_false; lra). replace (rltb 0 1) with true in R2 by (symmetry; apply rltb_true; lra).
    assert (Q1 : ev (fun y => 0 < ftime X Y DX DY r1 (- (t / 2)) y)) by (apply (lim_gt _ _ 0 T1); lra).
    assert (Q2 : ev (fun y => ftime X Y DX DY r1 (- (t / 2)) y < screen_time X DX y)) by (apply (lim_lt2 _ _ _ _ T1 (lim_screen _ _ _ _ _ _ _ P)); lra).
    assert (Q3 : ev (fun y => ftime X2 Y2 E1 F1 r1 (- (t / 2)) y < 0)) by (apply (lim_lt _ _ 0 T2); lra).
    assert (Q4 : ev (fun y => 0 < ftime X2 Y2 E1 F1 r2 (t / 2) y)) by (apply (lim_gt _ _ 0 T3); lra).
    assert (Q5 : ev (fun y => ftime X2 Y2 E1 F1 r2 (t / 2) y < screen_time X2 E1 y)) by (apply (lim_lt2 _ _ _ _ T3 (lim_screen _ _ _ _ _ _ _ par2)); lra).
    assert (Q6 : ev (fun y => ftime X4 Y4 E2 F2 r2 (t / 2) y < 0)) by (apply (lim_lt _ _ 0 T4); lra).
    assert (Q7 : ev (fun y => 0 < screen_time X4 E2 y)) by (apply (lim_gt _ _ 0 (lim_screen _ _ _ _ _ _ _ par4)); lra).
    pose proof (par_unit _ _ _ _ _ _ _ P) as U1. pose proof (par_unit _ _ _ _ _ _ _ par2) as U2. pose proof (par_unit _ _ _ _ _ _ _ par4) as U3.
    pose proof (ev_dx _ _ _ _ _ _ _ par4) as G.
    eapply ev_impl; [|exact (ev_and _ _ (ev_and _ _ L1 (ev_and _ _ L2 L3)) (ev_and _ _ (ev_and _ _ S1 (ev_and _ _ S2 S3)) (ev_and _ _ (ev_and _ _ R1 R2)
      (ev_and _ _ (ev_and _ _ Q1 (ev_and _ _ Q2 (ev_and _ _ Q3 (ev_and _ _ Q4 (ev_and _ _ Q5 (ev_and _ _ Q6 Q7)))))) (ev_and _ _ G (ev_and _ _ U1 (ev_and _ _ U2 U3)))))))].
    clear L1 L2 L3 S1 S2 S3 R1 R2 Q1 Q2 Q3 Q4 Q5 Q6 Q7 U1 U2 U3 T1 T2 T3 T4 G.
    cbv beta. intros y _ ((L1 & L2 & L3) & (S1 & S2 & S3) & (R1 & R2) & (Q1 & Q2 & Q3 & Q4 & Q5 & Q6 & Q7) & G & U1 & U2 & U3) limit int id LIM.
    destruct L1 as (i1 & j1 & C1 & AC1 & _). destruct L2 as (i2 & j2 & C2 & _ & AC2). destruct L3 as (i3 & j3 & C3 & _ & _).
    unfold pray in C1, C2, C3. unfold at_time in AC1, AC2.
    pose proof (first_enter asort _ _ bx _ _ _ _ _ _ C1 S1 Q1 Q2) as H1.
    pose proof (first_leave asort _ _ bx _ _ _ _ _ _ C2 S2 (Rlt_le _ _ Q3) Q4 Q5) as H2.
    pose proof (first_screen asort _ _ bx _ _ _ _ _ _ C3 S3 (Rlt_le _ _ Q6) Q7) as H3.
    do 3 eexists. split; [|split; [|split; [|split; [|split]]]].
    - eapply leg_through with (index_at := index_at); [exact EU|auto|exact U1|exact H1|exact AC1|exact IX|exact R1|].
      eapply leg_through with (index_at := index_at); [exact EU|right; lia|exact U2|exact H2|exact AC2|exact IX|exact R2|].
      eapply leg_screen; [exact EU|right; lia|exact U3|exact H3|exact PM].
    - reflexivity.
    - reflexivity.
    - reflexivity.
    - reflexivity.
    - cbn [row_end]. fold (Y4 y). unfold trim, mpt, pt, vset_w; cbn [vx vy vz vw].
      f_equal.
      + change (X4 y + screen_time X4 E2 y * E2 y = d). unfold screen_time. field. lra.
  Qed.
End Gauss.

Lemma radius_curvature : forall r h k, radius_ok r h -> curvature r k -> curv r = k.
Proof. intros [r| | |] h k R K; cbn [curvature curv] in *; [destruct K as (_ & ->)|..]; auto; destruct K. Qed.
Lemma sloped_paraxial : forall x h u, paraxial (fun _ => x) (fun y => h * y) (fun y => / sqrt (1 + u * y * (u * y))) (fun y => u * y / sqrt (1 + u * y * (u * y))) x h u.
Proof.
  intros x h u.
  assert (S1 : lim (fun y => sqrt (1 + u * y * (u * y))) 1).
  { apply (lim_to _ (sqrt (1 + u * 0 * (u * 0)))); [replace (1 + u * 0 * (u * 0)) with 1 by ring; apply sqrt_1|].
    apply lim_sqrt; [nra|]. apply lim_add; [apply lim_const|]. apply lim_mul; apply lim_scal; apply lim_id. }
  assert (SP : forall y, 0 < sqrt (1 + u * y * (u * y))) by (intro y; apply sqrt_lt_R0; nra).
  split; [apply lim_const|]. split; [|split; [|split]].
  - apply (lim_same (fun _ => h)); [intros y N; field; exact N|apply lim_const].
  - apply (lim_same (fun y => 1 / sqrt (1 + u * y * (u * y)))); [intros y N; field; apply Rgt_not_eq, SP|].
    apply (lim_to _ (1 / 1)); [field|]. apply lim_div; [lra|apply lim_const|exact S1].
  - apply (lim_same (fun y => u / sqrt (1 + u * y * (u * y)))); [intros y N; field; split; [apply Rgt_not_eq, SP|exact N]|].
    apply (lim_to _ (u / 1)); [field|]. apply lim_div; [lra|apply lim_const|exact S1].
  - apply ev_all. intro y. specialize (SP y). assert (Q : sqrt (1 + u * y * (u * y)) * sqrt (1 + u * y * (u * y)) = 1 + u * y * (u * y)) by (apply sqrt_sqrt; nra).
    set (s := sqrt (1 + u * y * (u * y))) in *. clearbody s.
    transitivity ((1 + u * y * (u * y)) / (s * s)); [field; lra|]. rewrite Q. field. nra.
Qed.
Lemma screen_object : forall d g, s_world g = M4 (V4 0 0 1 d) (V4 0 1 0 0) (V4 (-1) 0 0 0) (V4 0 0 0 1) -> is_inverse (s_world g) (s_obj g) ->
  s_obj g = M4 (V4 0 0 (-1) 0) (V4 0 1 0 0) (V4 1 0 0 (- d)) (V4 0 0 0 1).
Proof.
  intros d g E I. rewrite E in I. eapply ComponentOptics.inverse_unique; [exact I|]. split; apply mat_ext; intros [a b c e]; unfold mmul, mapply, vdot, mid; cbn; f_equal; ring.
Qed.

Theorem gaussian_optics : forall asort, argsort_ok asort -> forall r1 r2 t ap index_at, ap_ok ap -> rim_clear ap -> lens_fits r1 r2 t (reach ap) ->
  built asort (thick_lens r1 r2 t ap (Refractor index_at)) (fun s =>
  forall k1 k2 d b, curvature r1 k1 -> curvature r2 k2 -> screen_at d b -> t / 2 + ray_offset_value < d ->
  forall ey ez x0 h0 u0 wl n, ey * ey + ez * ez = 1 -> x0 < - (t / 2) -> index_at wl = Fin n -> 0 < n ->
  forall eps, 0 < eps -> exists delta, 0 < delta /\
  forall y, 0 < Rabs y < delta ->
  forall gen h tr fuel tr' i c, proper gen h tr [s; b] -> (3 <= t_limit tr)%Z -> trace asort h gen fuel tr = TOk tr' ->
    nth_error (source_rays gen tr) i = Some c -> c_ray c = sloped ey ez x0 (h0 * y) (u0 * y) -> c_idx c = 1 -> c_wl c = wl ->
  exists w0 w1 w2 H, rows_with_id i (f_rows (get_results tr')) = [w0; w1; w2] /\
    row_idx w0 = 1 /\ row_idx w1 = n /\ row_idx w2 = 1 /\ In (row_surf w2) (map s_id (surface_ids b)) /\
    row_end w2 = V4 d (H * ey) (H * ez) 0 /\
    Rabs (H / y - height_of (gauss k1 k2 n t x0 d) h0 u0) < eps).
Proof.
  intros asort AS r1 r2 t ap index_at A CL FIT.
  assert (FT := FIT). destruct FT as (R1 & R2 & T & _).
  destruct (thick_lens_erased asort r1 r2 t ap (Refractor index_at) AS A ltac:(lra) R1 R2) as (p & EP & B).
  eapply built_weaken; [|exact B]. cbv beta. intros s (TO & BC & ER) k1 k2 d b K1 K2 (g & bx & w & l & -> & PG & PW & PL & PM & PS) BD ey ez x0 h0 u0 wl n EU BX IX NP eps EP0.
  assert (W : s_obj g = M4 (V4 0 0 (-1) 0) (V4 0 1 0 0) (V4 1 0 0 (- d)) (V4 0 0 0 1) \/ ~ is_inverse (s_world g) (s_obj g)).
  { destruct (Classical_Prop.classic (is_inverse (s_world g) (s_obj g))) as [I|I]; [left; apply screen_object; auto|right; exact I]. }
  destruct W as [PO|NI].
  2:{ exists 1. split; [lra|]. intros y _ gen h tr fuel tr' i c (_ & _ & _ & _ & PP) _ _ _. exfalso. apply NI. apply (PP g). cbn [flat_map surface_ids]. apply in_or_app. right. left. reflexivity. }
  pose proof (sloped_paraxial x0 h0 u0) as P.
  pose proof (gauss_history asort AS ey ez EU r1 r2 t ap index_at p s A CL FIT EP TO BC ER _ _ _ _ _ _ _ P g bx w l d wl n PG PW PL PM PO BX BD IX NP) as GH.
  pose proof (par5 r1 r2 t ap index_at p s FIT EP ER _ _ _ _ _ _ _ P d n) as L5. rewrite (gauss_height r1 r2 t x0 h0 u0 d n NP) in L5.
  rewrite (radius_curvature _ _ _ R1 K1), (radius_curvature _ _ _ R2 K2) in L5.
  pose proof (proj1 (lim_ev _ _) L5 eps EP0) as L6.
  destruct (ev_and _ _ GH L6) as (dl & DP & Q). exists dl. split; [exact DP|].
  intros y (YP & YD) gen h tr fuel tr' i c PR LM TR N RC CI CW. destruct (Q y YP YD) as (Q1 & Q2). clear Q GH L5 L6.
  destruct (Q1 (t_limit tr) (c_int c) i LM) as (w0 & w1 & w2 & HI & I0 & I1 & I2 & SU & EN). clear Q1.
  exists w0, w1, w2. eexists. split; [|do 3 (split; [assumption|]); split; [|split; [exact EN|exact Q2]]].
  - pose proof (scene_histories asort AS _ _ _ _ _ _ TR (proj1 PR) i c N) as H'.
    refine (history_unique asort _ _ _ _ _ _ _ HI _ _); [exact (proj2 (proj2 (proj1 PR)))|].
    replace (Col (mray ey ez x0 (h0 * y) (/ sqrt (1 + u0 * y * (u0 * y))) (u0 * y / sqrt (1 + u0 * y * (u0 * y)))) 0 (c_int c) wl 1 i) with (with_id i c); [exact H'|].
    destruct PR as (_ & _ & _ & PG' & _). destruct (PG' c (nth_error_In _ _ N)) as (_ & G0).
    unfold with_id. rewrite RC, G0, CW, CI. reflexivity.
  - rewrite SU. cbn [surface_ids map]. left. reflexivity.
Qed.

(** Rays parallel to the axis meet it where the lensmaker's equation says. *)
Theorem parallel_rays_meet : forall asort, argsort_ok asort -> forall r1 r2 t ap index_at, ap_ok ap -> rim_clear ap -> lens_fits r1 r2 t (reach ap) ->
  built asort (thick_lens r1 r2 t ap (Refractor index_at)) (fun s =>
  forall k1 k2 n f wl, curvature r1 k1 -> curvature r2 k2 -> index_at wl = Fin n -> 0 < n ->
  lensmakers_equation r1 r2 (Fin n) (Fin t) = Some (Fin f) ->
  forall d b, d = t / 2 + f * (1 - (n - 1) * t * k1 / n) -> screen_at d b -> t / 2 + ray_offset_value < d ->
  forall ey ez x0 eps, ey * ey + ez * ez = 1 -> x0 < - (t / 2) -> 0 < eps -> exists delta, 0 < delta /\
  forall y, 0 < Rabs y < delta ->
  forall gen h tr fuel tr' i c, proper gen h tr [s; b] -> (3 <= t_limit tr)%Z -> trace asort h gen fuel tr = TOk tr' ->
    nth_error (source_rays gen tr) i = Some c -> c_ray c = Ray (V4 x0 (y * ey) (y * ez) 1) (V4 1 0 0 0) -> c_idx c = 1 -> c_wl c = wl ->
  exists w0 w1 w2 H, rows_with_id i (f_rows (get_results tr')) = [w0; w1; w2] /\ In (row_surf w2) (map s_id (surface_ids b)) /\
    row_end w2 = V4 d (H * ey) (H * ez) 0 /\ Rabs H < eps * Rabs y).
Proof.
  intros asort AS r1 r2 t ap index_at A CL FIT. eapply built_weaken; [|exact (gaussian_optics asort AS r1 r2 t ap index_at A CL FIT)]. cbv beta.
  intros s G k1 k2 n f wl K1 K2 IX NP LM d b ED SC BD ey ez x0 eps EU BX EP0.
  destruct (G k1 k2 d b K1 K2 SC BD ey ez x0 1 0 wl n EU BX IX NP eps EP0) as (dl & DP & Q). exists dl. split; [exact DP|].
  intros y Y gen h tr fuel tr' i c PR LIM TR N RC CI CW.
  destruct (Q y Y gen h tr fuel tr' i c PR LIM TR N) as (w0 & w1 & w2 & H & E & _ & _ & _ & SU & EN & HB); auto.
  { rewrite RC. unfold sloped, meridional. replace (1 + 0 * y * (0 * y)) with 1 by ring. rewrite sqrt_1, Rinv_1. f_equal; f_equal; field. }
  exists w0, w1, w2, H. do 3 (split; [assumption|]).
  assert (FC : f * mC (lens_matrix k1 k2 n t) = -1).
  { destruct (UtilProps.lensmaker_paraxial r1 r2 n t k1 k2 K1 K2 ltac:(lra)) as (F1 & F2). destruct (Req_dec (mC (lens_matrix k1 k2 n t)) 0) as [Z|Z].
    - rewrite (F2 Z) in LM. discriminate.
    - destruct (F1 Z) as (f' & E' & F'). rewrite LM in E'. injection E' as ->. exact F'. }
  replace (height_of (gauss k1 k2 n t x0 d) 1 0) with 0 in HB.
  - rewrite Rminus_0_r in HB. destruct Y as (YP & _). unfold Rdiv in HB. rewrite Rabs_mult in HB. rewrite Rabs_inv in HB.
    apply (Rmult_lt_compat_r (Rabs y)) in HB; [|exact YP]. replace (Rabs H * / Rabs y * Rabs y) with (Rabs H) in HB by (field; lra). exact HB.
  - transitivity (mA (lens_matrix k1 k2 n t) + (d - t / 2) * mC (lens_matrix k1 k2 n t)).
    + replace (d - t / 2) with (f * mA (lens_matrix k1 k2 n t)).
      * transitivity (mA (lens_matrix k1 k2 n t) * (1 + f * mC (lens_matrix k1 k2 n t))); [rewrite FC|]; ring.
      * rewrite ED. unfold lens_matrix, m2_mul, cross, travel. cbn [mA mB mC mD]. field. lra.
    + unfold height_of, gauss. unfold m2_mul at 1 3, travel at 1 3. generalize (lens_matrix k1 k2 n t). intro a. unfold m2_mul, travel. cbn [mA mB mC mD]. ring.
Qed.
