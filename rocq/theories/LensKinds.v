(** * LensKinds: biconvex and plano-convex lenses near their axis *)
From Coq Require Import Reals Lra Lia List Bool ZArith Psatz.
Import ListNotations.
From Verif Require Import XR XRFacts Arr Lin LinFacts Ops OpsFacts SpecOptics Prim Csg SpecCsg Surf SpecGeom SpecTree CsgProps SpanFacts BoxFacts TreeFacts
  World SpecWorld WorldFacts3 Tracer SpecTrace Components SpecComponents BuildFacts ComponentFacts ComponentFacts2 ComponentOptics SpecSymmetry SymmetryComponents Chords Paraxial AxisRays LensAxis SpecGauss.
Open Scope R_scope.

(** ** intersections of chords *)
Section Meet.
  Variable asort : list xr -> list nat.
  Hypothesis AS : argsort_ok asort.
  Lemma chord_within : forall nid b s1 s2 r u i v j p k q l, chord asort s1 r u i v j -> chord asort s2 r p k q l -> box_hit b r = true ->
    p <= u -> v <= q -> exists i' j', chord asort (Node nid INTERSECT b s1 s2) r u i' v j' /\ (i' = i \/ (p = u /\ i' = k)) /\ (j' = j \/ (v = q /\ j' = l)).
  Proof.
    intros nid b s1 s2 r u i v j p k q l C1 C2 BH H1 H2. assert (UV : u < v) by (destruct C1 as (? & ? & _ & _ & _ & X); exact X).
    destruct (chord_node asort AS nid INTERSECT b s1 s2 r u i v j p k q l u v C1 C2 BH) as (i' & j' & C & S); try lra.
    { intro t. cbn [bool_op]. rewrite !andb_true_iff, !rltb_true, !rleb_true. lra. }
    exists i', j'. split; [exact C|]. split.
    - destruct (S u i' (or_introl (conj eq_refl eq_refl))) as [[? ?]|[[? ?]|[[? ?]|[? ?]]]]; auto; lra.
    - destruct (S v j' (or_intror (conj eq_refl eq_refl))) as [[? ?]|[[? ?]|[[? ?]|[? ?]]]]; auto; lra.
  Qed.
  Lemma chord_some : forall nid b s1 s2 r u i v j p k q l, chord asort s1 r u i v j -> chord asort s2 r p k q l -> box_hit b r = true ->
    u < q -> q < v -> exists a i', chord asort (Node nid INTERSECT b s1 s2) r a i' q l /\ ((a = u /\ i' = i) \/ (a = p /\ i' = k)).
  Proof.
    intros nid b s1 s2 r u i v j p k q l C1 C2 BH H1 H2. assert (PQ : p < q) by (destruct C2 as (? & ? & _ & _ & _ & X); exact X).
    assert (exists a, a < q /\ u <= a /\ p <= a /\ (a = u \/ a = p)) as (a & AQ & UA & PA & AD) by (destruct (Rle_lt_dec u p); [exists p|exists u]; repeat split; auto; lra).
    destruct (chord_node asort AS nid INTERSECT b s1 s2 r u i v j p k q l a q C1 C2 BH) as (i' & j' & C & S); try lra.
    { intro t. cbn [bool_op]. rewrite !andb_true_iff, !rltb_true, !rleb_true. destruct AD; subst; lra. }
    assert (j' = l) by (destruct (S q j' (or_intror (conj eq_refl eq_refl))) as [[? ?]|[[? ?]|[[? ?]|[? ?]]]]; auto; lra). subst j'.
    exists a, i'. split; [exact C|]. destruct (S a i' (or_introl (conj eq_refl eq_refl))) as [[? ?]|[[? ?]|[[? ?]|[? ?]]]]; auto; lra.
  Qed.
  Lemma chord_late : forall nid b s1 s2 r u i v j p k q l, chord asort s1 r u i v j -> chord asort s2 r p k q l -> box_hit b r = true ->
    u < p -> p < v -> v <= q -> exists j', chord asort (Node nid INTERSECT b s1 s2) r p k v j' /\ (j' = j \/ (v = q /\ j' = l)).
  Proof.
    intros nid b s1 s2 r u i v j p k q l C1 C2 BH H1 H2 H3.
    destruct (chord_node asort AS nid INTERSECT b s1 s2 r u i v j p k q l p v C1 C2 BH) as (i' & j' & C & S); try lra.
    { intro t. cbn [bool_op]. rewrite !andb_true_iff, !rltb_true, !rleb_true. lra. }
    assert (i' = k) by (destruct (S p i' (or_introl (conj eq_refl eq_refl))) as [[? ?]|[[? ?]|[[? ?]|[? ?]]]]; auto; lra). subst i'.
    exists j'. split; [exact C|]. destruct (S v j' (or_intror (conj eq_refl eq_refl))) as [[? ?]|[[? ?]|[[? ?]|[? ?]]]]; auto; lra.
  Qed.

  Variables ey ez : R.
  Hypothesis EU : ey * ey + ez * ez = 1.
  Variable m : material.
  Variables X Y DX DY : R -> R.
  Notation spans := (spans_face asort ey ez m X Y DX DY).
  Notation hits_box b y := (box_hit b (pray ey ez X Y DX DY y) = true).
  Lemma span_upto : forall nid b s1 s2 y T1 n1 T1' n1' T2 n2 T2' n2', spans s1 y T1 n1 T1' n1' -> spans s2 y T2 n2 T2' n2' -> hits_box b y ->
    T2 < T1 -> T1 < T2' -> T2' < T1' -> spans (Node nid INTERSECT b s1 s2) y T1 n1 T2' n2'.
  Proof.
    intros nid b s1 s2 y T1 n1 T1' n1' T2 n2 T2' n2' (i & j & C1 & A1 & A1') (k & l & C2 & A2 & A2') BH H1 H2 H3.
    destruct (chord_upto asort AS nid b s1 s2 _ _ _ _ _ _ _ _ _ C1 C2 BH H1 H2 (Rlt_le _ _ H3)) as (l' & C & K). assert (l' = l) as -> by (destruct K as [->|(E & _)]; [reflexivity|lra]).
    exists i, l. split; [exact C|]. split; [apply acts_l; exact A1|apply acts_r; exact A2'].
  Qed.
  Lemma span_some : forall nid b s1 s2 y T1 n1 T1' n1' T2 n2 T2' n2', spans s1 y T1 n1 T1' n1' -> spans s2 y T2 n2 T2' n2' -> hits_box b y ->
    T1 < T2' -> T2' < T1' -> exists T n, spans (Node nid INTERSECT b s1 s2) y T n T2' n2' /\ (T = T1 \/ T = T2).
  Proof.
    intros nid b s1 s2 y T1 n1 T1' n1' T2 n2 T2' n2' (i & j & C1 & A1 & A1') (k & l & C2 & A2 & A2') BH H1 H2.
    destruct (chord_some nid b s1 s2 _ _ _ _ _ _ _ _ _ C1 C2 BH H1 H2) as (a & i' & C & [(-> & ->)|(-> & ->)]).
    - exists T1, n1. split; [|auto]. exists i, l. split; [exact C|]. split; [apply acts_l; exact A1|apply acts_r; exact A2'].
    - exists T2, n2. split; [|auto]. exists k, l. split; [exact C|]. split; [apply acts_r; exact A2|apply acts_r; exact A2'].
  Qed.
  Lemma span_within : forall nid b s1 s2 y T1 n1 T1' n1' T2 n2 T2' n2', spans s1 y T1 n1 T1' n1' -> spans s2 y T2 n2 T2' n2' -> hits_box b y ->
    T2 <= T1 -> T1' <= T2' -> (T2 = T1 -> n2 = n1) -> (T1' = T2' -> n2' = n1') -> spans (Node nid INTERSECT b s1 s2) y T1 n1 T1' n1'.
  Proof.
    intros nid b s1 s2 y T1 n1 T1' n1' T2 n2 T2' n2' (i & j & C1 & A1 & A1') (k & l & C2 & A2 & A2') BH H1 H2 E1 E2.
    destruct (chord_within nid b s1 s2 _ _ _ _ _ _ _ _ _ C1 C2 BH H1 H2) as (i' & j' & C & K1 & K2).
    exists i', j'. split; [exact C|]. split.
    - destruct K1 as [->|(E & ->)]; [apply acts_l; exact A1|apply acts_r]. rewrite E, (E1 E) in A2. exact A2.
    - destruct K2 as [->|(E & ->)]; [apply acts_l; exact A1'|apply acts_r]. rewrite <- E, (E2 E) in A2'. exact A2'.
  Qed.
  Lemma span_late : forall nid b s1 s2 y T1 n1 T1' n1' T2 n2 T2' n2', spans s1 y T1 n1 T1' n1' -> spans s2 y T2 n2 T2' n2' -> hits_box b y ->
    T1 < T2 -> T2 < T1' -> T1' <= T2' -> (T1' = T2' -> n2' = n1') -> spans (Node nid INTERSECT b s1 s2) y T2 n2 T1' n1'.
  Proof.
    intros nid b s1 s2 y T1 n1 T1' n1' T2 n2 T2' n2' (i & j & C1 & A1 & A1') (k & l & C2 & A2 & A2') BH H1 H2 H3 E2.
    destruct (chord_late nid b s1 s2 _ _ _ _ _ _ _ _ _ C1 C2 BH H1 H2 H3) as (j' & C & K2).
    exists k, j'. split; [exact C|]. split; [apply acts_r; exact A2|].
    destruct K2 as [->|(E & ->)]; [apply acts_l; exact A1'|apply acts_r]. rewrite <- E, (E2 E) in A2'. exact A2'.
  Qed.

  (** ** a ball on the axis *)
  Variables x h u : R.
  Hypothesis P : paraxial X Y DX DY x h u.
  Notation fn sg r p T y := (fnorm ey ez sg r p (pat X DX (T y) y) (hat_ Y DY (T y) y)).
  Lemma ball_norm : forall f r c X0 Y0, turned_surf f (PSphere r) m 0 0 c 1 -> 0 < r -> (X0 - c) * (X0 - c) + Y0 * Y0 = r * r ->
    world_normal f (mpt ey ez X0 Y0) = Some (fnorm ey ez (-1) (Fin r) (c - r) X0 Y0) /\ world_normal f (mpt ey ez X0 Y0) = Some (fnorm ey ez 1 (Fin (- r)) (c + r) X0 Y0).
  Proof.
    intros f r c X0 Y0 TS N E. rewrite (sphere_face ey ez EU f r m c 1 X0 Y0 TS ltac:(lra) E). rewrite Rabs_right by lra. unfold fnorm, fcos; cbn [curv]. split; f_equal; f_equal; field; lra.
  Qed.
  Lemma ftime_front : forall r c, 0 < r -> ftime X Y DX DY (Fin r) (c - r) = ball_time X Y DX DY (-1) c r.
  Proof. intros r c N. unfold ftime. replace (rltb 0 r) with true by (symmetry; apply rltb_true; lra). replace (c - r + r) with c by ring. reflexivity. Qed.
  Lemma ftime_back : forall r c y, 0 < r -> ftime X Y DX DY (Fin (- r)) (c + r) y = ball_time X Y DX DY 1 c r y.
  Proof.
    intros r c y N. unfold ftime. replace (rltb 0 (- r)) with false by (symmetry; apply rltb_false; lra). replace (c + r + - r) with c by ring. unfold ball_time. f_equal. f_equal. f_equal. unfold chord_sq. ring.
  Qed.
  Lemma ball_spans : forall f bx r c, turned_surf f (PSphere r) m 0 0 c 1 -> 0 < r ->
    let Ta := ftime X Y DX DY (Fin r) (c - r) in let Tb := ftime X Y DX DY (Fin (- r)) (c + r) in
    ev (fun y => spans (Leaf f bx) y (Ta y) (fn (-1) (Fin r) (c - r) Ta y) (Tb y) (fn 1 (Fin (- r)) (c + r) Tb y)).
  Proof.
    intros f bx r c TS N Ta Tb.
    eapply ev_impl; [|exact (ev_and _ _ (ball_leaf asort ey ez EU m X Y DX DY x h u P f bx r c 1 TS ltac:(lra)) (ev_and _ _ (ball_point X Y DX DY x h u P (-1) c r ltac:(auto) ltac:(lra)) (ball_point X Y DX DY x h u P 1 c r ltac:(auto) ltac:(lra))))].
    cbv beta zeta. intros y _ (C & P1 & P2). unfold Ta, Tb. rewrite ftime_front, ftime_back by exact N.
    exists (s_id f), (s_id f). split; [exact C|]. split; exists f; (split; [left; reflexivity|]; split; [reflexivity|]; split; [apply TS|]); unfold at_time.
    - apply (ball_norm f r c); assumption.
    - apply (ball_norm f r c); assumption.
  Qed.
  (** a face whose vertex lies on the cap *)
  Lemma cap_before : forall r c y, 0 < r -> 1 / 2 < DX y -> (let T := ball_time X Y DX DY (-1) c r y in (pat X DX T y - c) * (pat X DX T y - c) + hat_ Y DY T y * hat_ Y DY T y = r * r) ->
    forall p, p <= c - r -> let T := ftime X Y DX DY (Fin r) (c - r) in plane_time X DX p y <= T y /\ (plane_time X DX p y = T y -> V4 (-1) 0 0 0 = fn (-1) (Fin r) (c - r) T y).
  Proof.
    intros r c y N D PT p L T. cbv zeta in PT. unfold T. rewrite ftime_front by exact N. set (T1 := ball_time X Y DX DY (-1) c r y) in *.
    pose proof (plane_at X DX p y D) as PA. split; [apply (time_le X DX _ _ y); [lra|]; rewrite PA; nra|]. intro E. rewrite <- E in *. rewrite PA in *.
    assert (HZ : hat_ Y DY (plane_time X DX p y) y = 0) by nra. assert (p = c - r) by nra. rewrite HZ, H, vertex_norm. reflexivity.
  Qed.
  Lemma cap_after : forall r c y, 0 < r -> 1 / 2 < DX y -> (let T := ball_time X Y DX DY 1 c r y in (pat X DX T y - c) * (pat X DX T y - c) + hat_ Y DY T y * hat_ Y DY T y = r * r) ->
    forall p, c + r <= p -> let T := ftime X Y DX DY (Fin (- r)) (c + r) in T y <= plane_time X DX p y /\ (T y = plane_time X DX p y -> V4 1 0 0 0 = fn 1 (Fin (- r)) (c + r) T y).
  Proof.
    intros r c y N D PT p L T. cbv zeta in PT. unfold T. rewrite ftime_back by exact N. set (T1 := ball_time X Y DX DY 1 c r y) in *.
    pose proof (plane_at X DX p y D) as PA. split; [apply (time_le X DX _ _ y); [lra|]; rewrite PA; nra|]. intro E. rewrite E in *. rewrite PA in *.
    assert (HZ : hat_ Y DY (plane_time X DX p y) y = 0) by nra. assert (p = c + r) by nra. rewrite HZ, H, vertex_norm. reflexivity.
  Qed.
  Lemma lim_front : forall r p, r <> 0 -> lim (ftime X Y DX DY (Fin r) p) (p - x).
  Proof. intros r p N. apply (lim_ftime X Y DX DY x h u P); [discriminate|]. intros q E. injection E as <-. exact N. Qed.

  Lemma ball_part : forall s r c, erase s = TLeaf (PSphere r) m (tw 0 0 c) 1 -> tree_ok s -> boxes_current s ->
    exists f bx, s = Leaf f bx /\ turned_surf f (PSphere r) m 0 0 c 1 /\ shape_box s = surf_box (PSphere r) (turned_at c).
  Proof.
    intros s r c E TO BC. destruct (erase_leaf _ _ _ _ _ _ _ E TO) as (f & bx & -> & TS & _). exists f, bx. split; [reflexivity|]. split; [exact TS|].
    cbn [shape_box boxes_current erase] in *. injection E as EP _ EW _. rewrite BC, EP, EW. unfold turned_at. rewrite tw_eq. reflexivity.
  Qed.
  Lemma aperture_part : forall s ap th p c pf pb, erase s = TLeaf p m (tw 0 0 c) 1 -> tree_ok s -> boxes_current s -> ap_ok ap -> rim_clear ap -> create_aperture ap th = Some p -> 1 / 1000000 < th ->
    c - th / 2 <= pf -> pb <= c + th / 2 -> core_box pf pb (shape_box s) /\
    ev (fun y => spans s y (plane_time X DX (c - th / 2) y) (V4 (-1) 0 0 0) (plane_time X DX (c + th / 2) y) (V4 1 0 0 0)).
  Proof.
    intros s ap th p c pf pb E TO BC A CL EP T L1 L2. destruct (erase_leaf _ _ _ _ _ _ _ E TO) as (f & bx & -> & TS & _). split.
    - cbn [shape_box boxes_current erase] in *. injection E as EQ _ EW _. rewrite BC, EQ, EW. replace (tw 0 0 c) with (turned_at c) by (unfold turned_at; rewrite tw_eq; reflexivity).
      apply (aperture_core ap th p c pf pb A EP); lra.
    - exact (aperture_faces asort ey ez EU m X Y DX DY x h u P f bx ap th p c A CL EP T TS).
  Qed.

  (** ** plano-convex *)
  Definition plano_erased (r t q : R) (p : prim) : ptree := TNode INTERSECT (TLeaf (PSphere r) m (tw 0 0 (q - (r - t / 2))) 1) (TLeaf p m (tw 0 0 q) 1).
  Lemma plano_faces : forall s q r t ap p, ap_ok ap -> rim_clear ap -> 0 < r -> t < 2 * r -> 1 / 1000000 < t -> create_aperture ap t = Some p ->
    tree_ok s -> boxes_current s -> erase s = plano_erased r t q p ->
    let Tf := ftime X Y DX DY PInf (q - t / 2) in let Tb := ftime X Y DX DY (Fin (- r)) (q + t / 2) in
    ev (fun y => spans s y (Tf y) (fn (-1) PInf (q - t / 2) Tf y) (Tb y) (fn 1 (Fin (- r)) (q + t / 2) Tb y)).
  Proof.
    intros s q r t ap p A CL R T2 T EP TO BC ER. cbv zeta. assert (PB : q + t / 2 = q - (r - t / 2) + r) by ring. rewrite !PB. set (Tf := ftime X Y DX DY PInf _). set (Tb := ftime X Y DX DY (Fin (- r)) _). destruct s as [|i op b s1 s2]; [discriminate|]. cbn [erase plano_erased] in ER. injection ER as -> E1 E2.
    destruct TO as (TO1 & TO2). destruct BC as (BC1 & BC2 & as' & AO & EB). set (c := q - (r - t / 2)) in *.
    destruct (ball_part s1 r c E1 TO1 BC1) as (f & bx & -> & TS & B1). destruct (aperture_part s2 ap t p q (q - t / 2) (q + t / 2) E2 TO2 BC2 A CL EP T ltac:(lra) ltac:(lra)) as (CB2 & SP2).
    assert (CB : core_box (q - t / 2) (q + t / 2) b).
    { rewrite EB. apply (core_inter as' AO); [lra| |exact CB2]. rewrite B1. apply ball_core; [lra|rewrite Rabs_right by lra; unfold c; lra..]. }
    pose proof (ball_spans f bx r c TS R) as SP1. cbv zeta in SP1.
    fold c in PB. rewrite PB in *.
    assert (L1 : ev (fun y => ftime X Y DX DY (Fin r) (c - r) y < plane_time X DX (q - t / 2) y)) by (apply (lim_lt2 _ _ _ _ (lim_front r (c - r) ltac:(lra)) (lim_plane _ _ _ _ _ _ _ P _)); unfold c; lra).
    assert (L2 : ev (fun y => plane_time X DX (q - t / 2) y < Tb y)) by (apply (lim_lt2 _ _ _ _ (lim_plane _ _ _ _ _ _ _ P _) (lim_front (- r) (c + r) ltac:(lra))); unfold c; lra).
    eapply ev_impl; [|exact (ev_and _ _ SP1 (ev_and _ _ SP2 (ev_and _ _ (ev_box ey ez EU X Y DX DY x h u P (q - t / 2) (c + r) b ltac:(unfold c; lra) CB) (ev_and _ _ (ev_dx X Y DX DY x h u P) (ev_and _ _ (ball_point X Y DX DY x h u P 1 c r ltac:(auto) ltac:(lra)) (ev_and _ _ L1 L2))))))].
    cbv beta. intros y _ (S1 & S2 & BH & D & PT & LT1 & LT2). destruct (cap_after r c y R D PT (c + r) ltac:(lra)) as (LE & TIE).
    rewrite plane_norm by auto. eapply span_late; [exact S1|exact S2|exact BH|exact LT1|exact LT2|exact LE|exact TIE].
  Qed.

  (** ** biconvex *)
  Definition biconvex_erased (r1 r2 t q : R) (p : prim) : ptree :=
    TNode INTERSECT (TNode INTERSECT (TLeaf (PSphere r2) m (tw 0 0 (q + (r1 - t / 2))) 1) (TLeaf (PSphere r1) m (tw 0 0 (q - (r1 - t / 2))) 1)) (TLeaf p m (tw 0 0 q) 1).
  Definition bi_radius (r1 r2 : R) : xr := if rltb r1 r2 then PInf else Fin r2.
  Definition bi_front (r1 r2 t q : R) : R := if rltb r1 r2 then q - t / 2 else q - t / 2 + (r1 - r2).
  Lemma biconvex_faces : forall s q r1 r2 t ap p, ap_ok ap -> rim_clear ap -> 0 < r1 -> 0 < r2 -> t < 2 * r1 -> t < r1 + r2 -> 1 / 1000000 < q + t / 2 - bi_front r1 r2 t q -> create_aperture ap t = Some p ->
    tree_ok s -> boxes_current s -> erase s = biconvex_erased r1 r2 t q p ->
    let pf := bi_front r1 r2 t q in let Tf := ftime X Y DX DY (bi_radius r1 r2) pf in let Tb := ftime X Y DX DY (Fin (- r1)) (q + t / 2) in
    ev (fun y => spans s y (Tf y) (fn (-1) (bi_radius r1 r2) pf Tf y) (Tb y) (fn 1 (Fin (- r1)) (q + t / 2) Tb y)).
  Proof.
    intros s q r1 r2 t ap p A CL R1 R2 T2 T3 T EP TO BC ER. cbv zeta. set (pf := bi_front r1 r2 t q) in *. assert (PB : q + t / 2 = q - (r1 - t / 2) + r1) by ring. rewrite !PB. set (Tf := ftime X Y DX DY (bi_radius r1 r2) _). set (Tb := ftime X Y DX DY (Fin (- r1)) _). destruct s as [|i op b s12 s3]; [discriminate|]. cbn [erase biconvex_erased] in ER. injection ER as -> E12 E3.
    destruct s12 as [|i2 op2 b2 s1 s2]; [discriminate|]. cbn [erase] in E12. injection E12 as -> E1 E2.
    destruct TO as ((TO1 & TO2) & TO3). destruct BC as ((BC1 & BC2 & as2 & AO2 & EB2) & BC3 & as' & AO & EB). cbn [shape_box] in EB.
    set (c2 := q + (r1 - t / 2)) in *. set (c1 := q - (r1 - t / 2)) in *.
    destruct (ball_part s1 r2 c2 E1 TO1 BC1) as (f2 & bx2 & -> & TS2 & B2). destruct (ball_part s2 r1 c1 E2 TO2 BC2) as (f1 & bx1 & -> & TS1 & B1).
    assert (FR : (r1 < r2 /\ pf = q - t / 2 /\ bi_radius r1 r2 = PInf) \/ (r2 <= r1 /\ pf = c2 - r2 /\ bi_radius r1 r2 = Fin r2)).
    { unfold pf, bi_front, bi_radius. destruct (rltb r1 r2) eqn:E; [left; apply rltb_true in E|right; apply rltb_false in E]; (split; [lra|]; split; [unfold c2; ring|reflexivity]). }
    fold c1 in PB.
    destruct (aperture_part s3 ap t p q pf (q + t / 2) E3 TO3 BC3 A CL EP ltac:(destruct FR as [(? & ? & _)|(? & ? & _)]; unfold c2 in *; lra) ltac:(destruct FR as [(? & ? & _)|(? & ? & _)]; unfold c2 in *; lra) ltac:(lra)) as (CB3 & SP3).
    assert (CB2 : core_box pf (q + t / 2) b2).
    { rewrite EB2, B2, B1. apply (core_inter as2 AO2); [lra| |]; apply ball_core; try lra; rewrite Rabs_right by lra; destruct FR as [(? & ? & _)|(? & ? & _)]; unfold c1, c2 in *; lra. }
    assert (CB : core_box pf (q + t / 2) b) by (rewrite EB; apply (core_inter as' AO); [lra|exact CB2|exact CB3]).
    pose proof (ball_spans f2 bx2 r2 c2 TS2 R2) as SP2. pose proof (ball_spans f1 bx1 r1 c1 TS1 R1) as SP1. cbv zeta in SP1, SP2.
    assert (PF : c2 - r2 <= pf) by (destruct FR as [(? & ? & _)|(? & ? & _)]; unfold c2 in *; lra). rewrite PB in *.
    assert (PFB : ev (fun y => ftime X Y DX DY (Fin r2) (c2 - r2) y < Tb y)).
    { apply (lim_lt2 _ _ _ _ (lim_front r2 (c2 - r2) ltac:(lra)) (lim_front (- r1) (c1 + r1) ltac:(lra))). lra. }
    assert (L3 : ev (fun y => Tb y < ftime X Y DX DY (Fin (- r2)) (c2 + r2) y)).
    { apply (lim_lt2 _ _ _ _ (lim_front (- r1) (c1 + r1) ltac:(lra)) (lim_front (- r2) (c2 + r2) ltac:(lra))). unfold c1, c2; lra. }
    pose proof (ev_and _ _ SP2 (ev_and _ _ SP1 (ev_and _ _ (ev_box ey ez EU X Y DX DY x h u P pf (c1 + r1) b2 ltac:(lra) CB2) (ev_and _ _ PFB L3)))) as INN.
    pose proof (ev_and _ _ SP3 (ev_and _ _ (ev_box ey ez EU X Y DX DY x h u P pf (c1 + r1) b ltac:(lra) CB) (ev_and _ _ (ev_dx X Y DX DY x h u P) (ball_point X Y DX DY x h u P 1 c1 r1 ltac:(auto) ltac:(lra))))) as OUT.
    destruct FR as [(LT & EPF & ERF)|(LE & EPF & ERF)].
    - assert (L4 : ev (fun y => ftime X Y DX DY (Fin r2) (c2 - r2) y < plane_time X DX (q - t / 2) y)) by (apply (lim_lt2 _ _ _ _ (lim_front r2 (c2 - r2) ltac:(lra)) (lim_plane _ _ _ _ _ _ _ P _)); unfold c2; lra).
      assert (L5 : ev (fun y => ftime X Y DX DY (Fin r1) (c1 - r1) y < plane_time X DX (q - t / 2) y)) by (apply (lim_lt2 _ _ _ _ (lim_front r1 (c1 - r1) ltac:(lra)) (lim_plane _ _ _ _ _ _ _ P _)); unfold c1; lra).
      assert (L6 : ev (fun y => plane_time X DX (q - t / 2) y < Tb y)) by (apply (lim_lt2 _ _ _ _ (lim_plane _ _ _ _ _ _ _ P _) (lim_front (- r1) (c1 + r1) ltac:(lra))); lra).
      eapply ev_impl; [|exact (ev_and _ _ INN (ev_and _ _ OUT (ev_and _ _ L4 (ev_and _ _ L5 L6))))]. cbv beta. intros y _ ((S2 & S1 & BH2 & A1 & A2) & (S3 & BH & D & PT) & A3 & A4 & A5).
      destruct (span_some i2 b2 _ _ _ _ _ _ _ _ _ _ _ S2 S1 BH2 A1 A2) as (T0 & n0 & S12 & OR).
      destruct (cap_after r1 c1 y R1 D PT (c1 + r1) ltac:(lra)) as (LE & TIE). unfold Tf. rewrite ERF, EPF. rewrite (plane_norm ey ez (-1) PInf) by auto.
      eapply span_late; [exact S12|exact S3|exact BH|destruct OR as [-> | ->]; assumption|exact A5|exact LE|exact TIE].
    - assert (L1 : ev (fun y => ftime X Y DX DY (Fin r1) (c1 - r1) y < ftime X Y DX DY (Fin r2) (c2 - r2) y)).
      { apply (lim_lt2 _ _ _ _ (lim_front r1 (c1 - r1) ltac:(lra)) (lim_front r2 (c2 - r2) ltac:(lra))). unfold c1, c2; lra. }
      eapply ev_impl; [|exact (ev_and _ _ INN (ev_and _ _ OUT (ev_and _ _ L1 (ball_point X Y DX DY x h u P (-1) c2 r2 ltac:(auto) ltac:(lra)))))]. cbv beta. intros y _ ((S2 & S1 & BH2 & A1 & A2) & (S3 & BH & D & PT) & A3 & PT2).
      pose proof (span_upto i2 b2 _ _ _ _ _ _ _ _ _ _ _ S2 S1 BH2 A3 A1 A2) as S12.
      destruct (cap_after r1 c1 y R1 D PT (c1 + r1) ltac:(lra)) as (LE1 & TIE1). destruct (cap_before r2 c2 y R2 D PT2 (q - t / 2) ltac:(unfold c2; lra)) as (LE2 & TIE2).
      unfold Tf. rewrite ERF, EPF. eapply span_within; [exact S12|exact S3|exact BH|exact LE2|exact LE1|exact TIE2|exact TIE1].
  Qed.
End Meet.

(** ** The trees of the two factories, moved along the axis *)
Lemma leaf_turned : forall p m c, mv rx90 (mv ry90 (TLeaf p m (mmul (mmove 0 0 c) mid) 1)) = TLeaf p m (tw 0 0 c) 1.
Proof. intros. cbn [mv]. rewrite turned_leaf. reflexivity. Qed.
Lemma leaf_turned0 : forall p m, mv rx90 (mv ry90 (TLeaf p m mid 1)) = TLeaf p m (tw 0 0 0) 1.
Proof.
  intros. rewrite <- leaf_turned. do 3 f_equal. apply mat_ext. intros [a b d e]. unfold mmul, mapply, vdot, mmove, mid; cbn. f_equal; ring.
Qed.
Lemma leaf_slid : forall p m c q, mv (mmove q 0 0) (TLeaf p m (tw 0 0 c) 1) = TLeaf p m (tw 0 0 (q + c)) 1.
Proof. intros. cbn [mv]. f_equal. apply mat_ext. intros [a b d e]. unfold mmul, mapply, vdot, mmove, tw; cbn. f_equal; ring. Qed.
Lemma slid_tree : forall asort prog l env T q, argsort_ok asort -> track prog [] = Some env -> nth_error env l = Some (Some T) -> right_leaf T = true -> prims_ok T ->
  built asort (standing_at q (turned (Makes prog l))) (fun s => tree_ok s /\ boxes_current s /\ erase s = mv (mmove q 0 0) (mv rx90 (mv ry90 T))).
Proof.
  intros asort prog l env T q AO TR N RL PO. destruct (track_turned _ _ _ _ TR N) as (env' & E' & N'). cbn [turned standing_at].
  eexists _, l. split; [reflexivity|]. intros h Nh. set (cs := prog ++ [CMotion l (RotY 90 Deg); CMotion l (RotX 90 Deg)]) in *.
  assert (E2 : track (cs ++ [CMotion l (op_move_x q)]) [] = Some (set_nth env' l (Some (mv (mmove q 0 0) (mv rx90 (mv ry90 T)))))).
  { rewrite track_app, E'. cbn [track track_call op_move_x motion_matrix]. rewrite N'. reflexivity. }
  destruct (built_component asort cs l (op_move_x q) h _ (mv (mmove q 0 0) (mv rx90 (mv ry90 T))) AO Nh E2) as (h' & s & R & Sh & Er & TO & BC).
  - rewrite nth_set_nth, Nat.eqb_refl, N'. reflexivity.
  - rewrite !right_leaf_mv. exact RL.
  - do 3 (apply prims_ok_mv; [reflexivity|]). exact PO.
  - exists h', s. do 4 (split; [assumption|]). do 2 (split; [assumption|]). exact Er.
Qed.
Lemma plano_placed : forall asort r t ap m q, argsort_ok asort -> ap_ok ap -> 0 <= t -> 0 < r ->
  exists p, create_aperture ap t = Some p /\ built asort (standing_at q (plano_convex_lens (Fin r) t ap m)) (fun s => tree_ok s /\ boxes_current s /\ erase s = plano_erased m r t q p).
Proof.
  intros asort r t ap m q AO A T R. destruct (create_aperture_ok ap t A) as (p & Ep). exists p. split; [exact Ep|]. unfold plano_convex_lens. rewrite Ep.
  set (T1 := TLeaf (PSphere r) m (mmul (mmove 0 0 (- (r - t / 2))) mid) 1).
  assert (EQ : plano_erased m r t q p = mv (mmove q 0 0) (mv rx90 (mv ry90 (TNode INTERSECT T1 (TLeaf p m mid 1))))).
  { change (mv (mmove q 0 0) (mv rx90 (mv ry90 (TNode INTERSECT T1 (TLeaf p m mid 1))))) with (TNode INTERSECT (mv (mmove q 0 0) (mv rx90 (mv ry90 T1))) (mv (mmove q 0 0) (mv rx90 (mv ry90 (TLeaf p m mid 1))))).
    unfold T1. rewrite leaf_turned, leaf_turned0, !leaf_slid. unfold plano_erased. replace (q + 0) with q by ring. reflexivity. }
  rewrite EQ. eapply slid_tree; [exact AO|cbn [track track_call]; rewrite (aperture_init _ _ _ Ep); trk|reflexivity|reflexivity|].
  simpl. repeat split; auto; try lra; try (apply affine_mmul; reflexivity). eapply aperture_prim_ok; eauto.
Qed.
Lemma biconvex_placed : forall asort r1 r2 t ap m q, argsort_ok asort -> ap_ok ap -> 0 <= t -> 0 < r1 -> 0 < r2 ->
  exists p, create_aperture ap t = Some p /\ built asort (standing_at q (biconvex_lens (Fin r1) (Fin r2) t ap m)) (fun s => tree_ok s /\ boxes_current s /\ erase s = biconvex_erased m r1 r2 t q p).
Proof.
  intros asort r1 r2 t ap m q AO A T R1 R2. destruct (create_aperture_ok ap t A) as (p & Ep). exists p. split; [exact Ep|]. unfold biconvex_lens. rewrite Ep.
  set (T2 := TLeaf (PSphere r2) m (mmul (mmove 0 0 (r1 - t / 2)) mid) 1). set (T1 := TLeaf (PSphere r1) m (mmul (mmove 0 0 (- (r1 - t / 2))) mid) 1).
  assert (EQ : biconvex_erased m r1 r2 t q p = mv (mmove q 0 0) (mv rx90 (mv ry90 (TNode INTERSECT (TNode INTERSECT T2 T1) (TLeaf p m mid 1))))).
  { change (mv (mmove q 0 0) (mv rx90 (mv ry90 (TNode INTERSECT (TNode INTERSECT T2 T1) (TLeaf p m mid 1))))) with
      (TNode INTERSECT (TNode INTERSECT (mv (mmove q 0 0) (mv rx90 (mv ry90 T2))) (mv (mmove q 0 0) (mv rx90 (mv ry90 T1)))) (mv (mmove q 0 0) (mv rx90 (mv ry90 (TLeaf p m mid 1))))).
    unfold T1, T2. rewrite !leaf_turned, leaf_turned0, !leaf_slid. unfold biconvex_erased. replace (q + 0) with q by ring. reflexivity. }
  rewrite EQ. eapply slid_tree; [exact AO|cbn [track track_call]; rewrite (aperture_init _ _ _ Ep); trk|reflexivity|reflexivity|].
  simpl. repeat split; auto; try lra; try (apply affine_mmul; reflexivity). eapply aperture_prim_ok; eauto.
Qed.
