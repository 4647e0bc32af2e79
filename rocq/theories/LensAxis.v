(** * LensAxis: a thick lens as a ray close to its axis meets it *)
From Coq Require Import Reals Lra Lia List Bool ZArith Psatz.
Import ListNotations.
From Verif Require Import XR XRFacts Arr Lin LinFacts Ops OpsFacts SpecOptics Prim Csg Surf SpecGeom SpecTree CsgProps SpanFacts BoxFacts TreeFacts
  World SpecWorld WorldFacts3 Tracer SpecTrace Components SpecComponents BuildFacts ComponentFacts ComponentOptics SpecSymmetry SymmetryComponents Chords Paraxial AxisRays.
Open Scope R_scope.

(** ** The tree of a thick lens *)
Definition side_tree (convex : R -> bool) (r : xr) (centre : R -> R) (m : material) (T : ptree) : ptree :=
  match r with
  | Fin r => TNode (if convex r then INTERSECT else DIFFERENCE) T (TLeaf (PSphere r) m (mmul (mmove 0 0 (centre r)) mid) (if convex r then 1 else -1))
  | _ => T
  end.
Definition turned_side (convex : R -> bool) (r : xr) (centre : R -> R) (m : material) (T : ptree) : ptree :=
  match r with
  | Fin r => TNode (if convex r then INTERSECT else DIFFERENCE) T (TLeaf (PSphere r) m (tw 0 0 (centre r)) (if convex r then 1 else -1))
  | _ => T
  end.
Lemma lens_side_tree : forall convex r centre m prog l env T, track prog [] = Some env -> nth_error env l = Some (Some T) ->
  length env = S l -> right_leaf T = true -> prims_ok T -> (forall r', r = Fin r' -> r' <> 0) ->
  exists env', track (fst (lens_side convex r centre m (prog, l))) [] = Some env' /\
    nth_error env' (snd (lens_side convex r centre m (prog, l))) = Some (Some (side_tree convex r centre m T)) /\
    length env' = S (snd (lens_side convex r centre m (prog, l))) /\ right_leaf (side_tree convex r centre m T) = true /\ prims_ok (side_tree convex r centre m T).
Proof.
  intros convex r centre m prog l env T E N L RL PO NZ.
  destruct r as [r| | |]; [|exists env; cbn [lens_side fst snd side_tree]; auto..].
  cbn [lens_side fst snd side_tree]. rewrite track_app, E. cbn [track track_call prim_init].
  assert (N0 : nth_error (env ++ [Some (TLeaf (PSphere r) m mid 1)]) (S l) = Some (Some (TLeaf (PSphere r) m mid 1))) by (rewrite nth_error_app2, L, Nat.sub_diag by lia; reflexivity).
  rewrite N0. cbn [op_move_z motion_matrix].
  change (M4 (V4 1 0 0 0) (V4 0 1 0 0) (V4 0 0 1 (centre r)) (V4 0 0 0 1)) with (mmove 0 0 (centre r)).
  destruct (Nat.eqb_spec l (S l)) as [X|_]; [lia|].
  set (B := mv (mmove 0 0 (centre r)) (TLeaf (PSphere r) m mid 1)).
  set (env1 := set_nth (env ++ _) (S l) (Some B)).
  assert (N1 : nth_error env1 l = Some (Some T)).
  { unfold env1. rewrite nth_set_nth. destruct (Nat.eqb_spec l (S l)); [lia|]. rewrite nth_error_app1 by lia. exact N. }
  assert (N2 : nth_error env1 (S l) = Some (Some B)).
  { unfold env1. rewrite nth_set_nth, Nat.eqb_refl. rewrite nth_error_app2, L, Nat.sub_diag by lia. reflexivity. }
  assert (L1 : length env1 = S (S l)) by (unfold env1; rewrite set_nth_length, app_length, L; simpl; lia).
  rewrite N1, N2. eexists. split; [reflexivity|].
  split. { rewrite nth_error_app2 by (rewrite !set_nth_length, L1; lia). rewrite !set_nth_length, L1, Nat.sub_diag. cbn [nth_error].
    unfold B. destruct (convex r); cbn [inv mv]; do 4 f_equal; ring. }
  split; [rewrite app_length, !set_nth_length, L1; simpl; lia|].
  split; [destruct (convex r); simpl; rewrite RL; reflexivity|].
  destruct (convex r); simpl; (split; [exact PO|]; split; [apply NZ; reflexivity|apply affine_mmul; reflexivity]).
Qed.
Lemma turned_leaf : forall c, mmul rx90 (mmul ry90 (mmul (mmove 0 0 c) mid)) = tw 0 0 c.
Proof. intro c. rewrite mmul_mid_r. apply tw_eq. Qed.
Lemma side_turned : forall convex r centre m T, mv rx90 (mv ry90 (side_tree convex r centre m T)) = turned_side convex r centre m (mv rx90 (mv ry90 T)).
Proof. intros convex [r| | |] centre m T; cbn [side_tree turned_side mv]; rewrite ?turned_leaf; reflexivity. Qed.

(** with its vertices at [pf] and [pb] *)
Definition placed_erased (r1 r2 : xr) (m : material) (p : prim) (pf pb c : R) : ptree :=
  turned_side (fun r => rltb r 0) r2 (fun r => r + pb) m (turned_side (fun r => rltb 0 r) r1 (fun r => r + pf) m (TLeaf p m (tw 0 0 c) 1)).
Definition lens_erased (r1 r2 : xr) (t : R) (m : material) (p : prim) (c : R) : ptree := placed_erased r1 r2 m p (- (t / 2)) (t / 2) c.
Lemma thick_lens_tracked : forall r1 r2 t ap m, ap_ok ap -> 0 <= t -> radius_ok r1 (reach ap) -> radius_ok r2 (reach ap) ->
  exists p prog l env T, create_aperture ap (t + front_depth r1 (reach ap) + back_depth r2 (reach ap)) = Some p /\
  thick_lens r1 r2 t ap m = turned (Makes prog l) /\ track prog [] = Some env /\ nth_error env l = Some (Some T) /\ right_leaf T = true /\ prims_ok T /\
  mv rx90 (mv ry90 T) = lens_erased r1 r2 t m p ((back_depth r2 (reach ap) - front_depth r1 (reach ap)) / 2).
Proof.
  intros r1 r2 t ap m A T R1 R2. pose proof (reach_pos ap A) as P.
  pose proof (front_depth_pos r1 (reach ap) ltac:(lra) R1) as F1. pose proof (back_depth_pos r2 (reach ap) ltac:(lra) R2) as F2.
  unfold thick_lens. rewrite full_thickness by auto. set (D1 := front_depth r1 (reach ap)) in *. set (D2 := back_depth r2 (reach ap)) in *.
  replace (t / 2 + D2 + (t / 2 + D1)) with (t + D1 + D2) by field. replace (t / 2 + D2 - (t / 2 + D1)) with (D2 - D1) by ring.
  set (th := t + D1 + D2). set (of := D2 - D1).
  destruct (create_aperture_ok ap th A) as (p & Ep). exists p. rewrite Ep. cbv zeta.
  assert (T0 : track [CSurface p m; CMotion 0 (op_move_z (of / 2))] [] = Some [Some (TLeaf p m (mmul (mmove 0 0 (of / 2)) mid) 1)]).
  { cbn [track track_call]. rewrite (aperture_init _ _ _ Ep). reflexivity. }
  destruct (lens_side_tree (fun r => rltb 0 r) r1 (fun r => r - t / 2) m _ 0%nat _ _ T0 eq_refl eq_refl eq_refl) as (env1 & E1 & N1 & L1 & RL1 & P1).
  { simpl. split; [|apply affine_mmul; reflexivity]. eapply aperture_prim_ok; [exact A| |exact Ep]. unfold th. lra. }
  { intros r' ->. apply R1. }
  set (l1 := lens_side (fun r => rltb 0 r) r1 (fun r => r - t / 2) m _) in *. rewrite (surjective_pairing l1).
  destruct (lens_side_tree (fun r => rltb r 0) r2 (fun r => r + t / 2) m _ _ _ _ E1 N1 L1 RL1 P1) as (env2 & E2 & N2 & L2 & RL2 & P2).
  { intros r' ->. apply R2. }
  do 4 eexists. split; [reflexivity|]. split; [reflexivity|]. split; [exact E2|]. split; [exact N2|]. split; [exact RL2|]. split; [exact P2|].
  rewrite !side_turned. cbn [mv]. rewrite turned_leaf. reflexivity.
Qed.
Lemma thick_lens_erased : forall asort r1 r2 t ap m, argsort_ok asort -> ap_ok ap -> 0 <= t ->
  radius_ok r1 (reach ap) -> radius_ok r2 (reach ap) ->
  exists p, create_aperture ap (t + front_depth r1 (reach ap) + back_depth r2 (reach ap)) = Some p /\
  built asort (thick_lens r1 r2 t ap m) (fun s => tree_ok s /\ boxes_current s /\ erase s = lens_erased r1 r2 t m p ((back_depth r2 (reach ap) - front_depth r1 (reach ap)) / 2)).
Proof.
  intros asort r1 r2 t ap m AO A T R1 R2. destruct (thick_lens_tracked r1 r2 t ap m A T R1 R2) as (p & prog & l & env & T0 & Ep & E & TR & N & RL & PO & ER).
  exists p. split; [exact Ep|]. rewrite E, <- ER. apply (built_more asort _ (fun s => erase s = mv rx90 (mv ry90 T0))); [auto|].
  eapply built_turned; [exact AO|exact TR|exact N|exact RL|exact PO|]. auto.
Qed.
(** ... moved along the axis after it was made *)
Lemma slid_side : forall q convex r centre m T, mv (mmove q 0 0) (turned_side convex r centre m T) = turned_side convex r (fun r => q + centre r) m (mv (mmove q 0 0) T).
Proof.
  intros q convex [r| | |] centre m T; cbn [turned_side mv]; try reflexivity. do 2 f_equal.
  apply mat_ext. intros [a b c e]. unfold mmul, mapply, vdot, mmove, tw; cbn. f_equal; ring.
Qed.
Lemma side_centre : forall convex r c c' m T, (forall r, c r = c' r) -> turned_side convex r c m T = turned_side convex r c' m T.
Proof. intros convex [r| | |] c c' m T E; cbn [turned_side]; rewrite ?E; reflexivity. Qed.
Lemma placed_lens_erased : forall asort r1 r2 t ap m q, argsort_ok asort -> ap_ok ap -> 0 <= t ->
  radius_ok r1 (reach ap) -> radius_ok r2 (reach ap) ->
  exists p, create_aperture ap (t + front_depth r1 (reach ap) + back_depth r2 (reach ap)) = Some p /\
  built asort (standing_at q (thick_lens r1 r2 t ap m)) (fun s => tree_ok s /\ boxes_current s /\
    erase s = placed_erased r1 r2 m p (q - t / 2) (q + t / 2) (q + (back_depth r2 (reach ap) - front_depth r1 (reach ap)) / 2)).
Proof.
  intros asort r1 r2 t ap m q AO A T R1 R2. destruct (thick_lens_tracked r1 r2 t ap m A T R1 R2) as (p & prog & l & env & T0 & Ep & E & TR & N & RL & PO & ER).
  exists p. split; [exact Ep|]. rewrite E. set (c := (back_depth r2 (reach ap) - front_depth r1 (reach ap)) / 2) in *.
  destruct (track_turned _ _ _ _ TR N) as (env' & E' & N'). cbn [turned standing_at].
  eexists _, l. split; [reflexivity|]. intros h Nh.
  set (cs := prog ++ [CMotion l (RotY 90 Deg); CMotion l (RotX 90 Deg)]) in *.
  assert (E2 : track (cs ++ [CMotion l (op_move_x q)]) [] = Some (set_nth env' l (Some (mv (mmove q 0 0) (mv rx90 (mv ry90 T0)))))).
  { rewrite track_app, E'. cbn [track track_call op_move_x motion_matrix]. rewrite N'. reflexivity. }
  destruct (built_component asort cs l (op_move_x q) h _ (mv (mmove q 0 0) (mv rx90 (mv ry90 T0))) AO Nh E2) as (h' & s & R & Sh & Er & TO & BC).
  - rewrite nth_set_nth, Nat.eqb_refl, N'. reflexivity.
  - rewrite !right_leaf_mv. exact RL.
  - do 3 (apply prims_ok_mv; [reflexivity|]). exact PO.
  - exists h', s. do 4 (split; [assumption|]). do 2 (split; [assumption|]). rewrite Er, ER. unfold lens_erased, placed_erased. rewrite !slid_side. cbn [mv].
    replace (mmul (mmove q 0 0) (tw 0 0 c)) with (tw 0 0 (q + c)) by (apply mat_ext; intros [a b d e]; unfold mmul, mapply, vdot, mmove, tw; cbn; f_equal; ring).
    rewrite (side_centre (fun r => rltb r 0) r2 (fun r => q + (r + t / 2)) (fun r => r + (q + t / 2))) by (intro; ring).
    rewrite (side_centre (fun r => rltb 0 r) r1 (fun r => q + (r + - (t / 2))) (fun r => r + (q - t / 2))) by (intro; ring). reflexivity.
Qed.

(** ** Faces *)
Definition curv (r : xr) : R := match r with Fin r => / r | _ => 0 end.
Section Lens.
  Variable asort : list xr -> list nat.
  Hypothesis AS : argsort_ok asort.
  Variables ey ez : R.
  Hypothesis EU : ey * ey + ez * ez = 1.
  Variable m : material.
  (** The normal of a face of radius [r] with vertex [p]: outwards, [sg] = -1 in front *)
  Definition fcos (r : xr) (p x : R) : R := 1 - curv r * (x - p).
  Definition fnorm (sg : R) (r : xr) (p x y : R) : v4 :=
    V4 (sg * fcos r p x) (- sg * (curv r * y) * ey) (- sg * (curv r * y) * ez) 0.
  Definition acts (s : shape) (i : Z) (p n : v4) : Prop :=
    exists f, In f (surface_ids s) /\ s_id f = i /\ s_mat f = m /\ world_normal f p = Some n.
  Lemma acts_l : forall nid op b s1 s2 i p n, acts s1 i p n -> acts (Node nid op b s1 s2) i p n.
  Proof. intros nid op b s1 s2 i p n (f & I & H). exists f. split; [cbn [surface_ids]; apply in_or_app; auto|exact H]. Qed.
  Lemma acts_r : forall nid op b s1 s2 i p n, acts s2 i p n -> acts (Node nid op b s1 s2) i p n.
  Proof. intros nid op b s1 s2 i p n (f & I & H). exists f. split; [cbn [surface_ids]; apply in_or_app; auto|exact H]. Qed.
  Lemma plane_norm : forall sg r p x y, (r = PInf \/ r = MInf) -> fnorm sg r p x y = V4 sg 0 0 0.
  Proof. intros sg r p x y [-> | ->]; unfold fnorm, fcos; cbn [curv]; f_equal; ring. Qed.
  Lemma vertex_norm : forall sg r p, fnorm sg r p p 0 = V4 sg 0 0 0.
  Proof. intros. unfold fnorm, fcos. f_equal; ring. Qed.
  Lemma sphere_norm : forall f r p k sg x y, turned_surf f (PSphere r) m 0 0 (p + r) k -> r <> 0 -> k * r = - sg * Rabs r ->
    (x - (p + r)) * (x - (p + r)) + y * y = r * r -> world_normal f (mpt ey ez x y) = Some (fnorm sg (Fin r) p x y).
  Proof.
    intros f r p k sg x y TS N K E. rewrite (sphere_face ey ez EU f r m (p + r) k x y TS N E). f_equal. unfold fnorm, fcos. cbn [curv].
    assert (AP := Rabs_pos_lt _ N). assert (Q : k / Rabs r = - sg / r).
    { apply (Rmult_eq_reg_r (Rabs r * r)); [|apply Rmult_integral_contrapositive_currified; lra]. field_simplify; [|lra..]. rewrite K. ring. }
    f_equal.
    - transitivity (k / Rabs r * (x - (p + r))); [unfold Rdiv; ring|]. rewrite Q. field. exact N.
    - transitivity (k / Rabs r * y * ey); [unfold Rdiv; ring|]. rewrite Q. field. exact N.
    - transitivity (k / Rabs r * y * ez); [unfold Rdiv; ring|]. rewrite Q. field. exact N.
  Qed.

  Variables X Y DX DY : R -> R.
  Variables x h u : R.
  Hypothesis P : paraxial X Y DX DY x h u.
  Definition pray (y : R) : ray := mray ey ez (X y) (Y y) (DX y) (DY y).
  Definition pat (T : R) (y : R) : R := X y + T * DX y.
  Definition hat_ (T : R) (y : R) : R := Y y + T * DY y.
  Definition at_time (T : R) (y : R) : v4 := mpt ey ez (pat T y) (hat_ T y).
  (** The ray meets [s] from T to T', and the normals at the two points are the given ones *)
  Definition spans_face (s : shape) (y T : R) (n : v4) (T' : R) (n' : v4) : Prop :=
    exists i j, chord asort s (pray y) T i T' j /\ acts s i (at_time T y) n /\ acts s j (at_time T' y) n'.
  Definition ftime (r : xr) (p : R) (y : R) : R :=
    match r with Fin r => ball_time X Y DX DY (if rltb 0 r then -1 else 1) (p + r) r y | _ => plane_time X DX p y end.

  Lemma ev_dx : ev (fun y => 1 / 2 < DX y).
  Proof. apply (lim_gt DX 1); [exact (par_DX _ _ _ _ _ _ _ P)|lra]. Qed.
  Lemma ev_small : forall f w, lim f 0 -> 0 < w -> ev (fun y => Rabs (f y) < w).
  Proof. intros f w L W. eapply ev_impl; [|apply (proj1 (lim_ev f 0) L w W)]. cbv beta. intros y _ H. rewrite Rminus_0_r in H. exact H. Qed.
  Lemma ev_thin : forall w, 0 < w -> ev (fun y => 1 / 2 <= DX y /\ thin (Y y) (DY y) /\ Rabs (Y y) <= w /\ DX y * DX y + DY y * DY y = 1).
  Proof.
    intros w W. eapply ev_impl; [|apply ev_and; [exact ev_dx|apply ev_and; [apply (ev_small _ 1 (par_Y _ _ _ _ _ _ _ P)); lra|
      apply ev_and; [apply (ev_small _ w (par_Y _ _ _ _ _ _ _ P) W)|apply ev_and; [apply (ev_small _ (1 / 1000000000) (par_DY _ _ _ _ _ _ _ P)); lra|exact (par_unit _ _ _ _ _ _ _ P)]]]]].
    cbv beta. intros y _ (A & B & C & D & E). unfold thin. repeat split; lra.
  Qed.
  Lemma lim_ftime : forall r p, r <> NaN -> (forall q, r = Fin q -> q <> 0) -> lim (ftime r p) (p - x).
  Proof.
    intros [r| | |] p N Z; unfold ftime; [|apply (lim_plane _ _ _ _ _ _ _ P)..].
    eapply lim_to; [|apply (lim_ball _ _ _ _ _ _ _ P)]. specialize (Z r eq_refl).
    destruct (rltb 0 r) eqn:E; [apply rltb_true in E; rewrite Rabs_right by lra|apply rltb_false in E; rewrite Rabs_left by lra]; ring.
  Qed.

  (** the aperture alone *)
  Lemma aperture_faces : forall f bx ap th p c, ap_ok ap -> ap_clear ap -> create_aperture ap th = Some p -> 1 / 1000000 < th ->
    turned_surf f p m 0 0 c 1 ->
    ev (fun y => spans_face (Leaf f bx) y (plane_time X DX (c - th / 2) y) (V4 (-1) 0 0 0) (plane_time X DX (c + th / 2) y) (V4 1 0 0 0)).
  Proof.
    intros f bx ap th p c A CL E T TS. pose proof (ap_half_pos ap A) as HP.
    assert (SM : forall q, ev (fun y => Rabs (hat_ (plane_time X DX q y) y) < ap_half ap / 2)).
    { intro q. apply ev_small; [|lra]. eapply slope_zero. pose proof (par_step _ _ _ _ _ _ _ P _ _ (lim_plane _ _ _ _ _ _ _ P q)) as Q.
      exact (par_H _ _ _ _ _ _ _ Q). }
    eapply ev_impl; [|apply ev_and; [apply (ev_thin _ HP)|apply ev_and; [apply (SM (c - th / 2))|apply (SM (c + th / 2))]]].
    cbv beta. intros y _ ((D & TH & W & U) & S1 & S2).
    pose proof (aperture_axis ey ez EU f ap th p m c 1 (X y) (Y y) (DX y) (DY y) A E ltac:(lra) TS D TH W) as H.
    exists (s_id f), (s_id f). split; [apply chord_leaf; [exact H|]; apply div_lt; lra|].
    assert (PT : forall q, pat (plane_time X DX q y) y = q) by (intro q; unfold pat, plane_time; field; lra).
    unfold at_time. rewrite !PT. destruct TS as (TP & TM & TO & TN).
    split; exists f; (split; [left; reflexivity|]; split; [reflexivity|]; split; [exact TM|]).
    - replace (c - th / 2) with (c + -1 * (th / 2)) at 1 by ring.
      apply (cap_face ey ez EU f ap th p m c _ (-1)); auto; [repeat split; auto|lra].
    - replace (c + th / 2) with (c + 1 * (th / 2)) at 1 by ring.
      apply (cap_face ey ez EU f ap th p m c _ 1); auto; [repeat split; auto|lra].
  Qed.

  Lemma ball_leaf : forall f bx r c k, turned_surf f (PSphere r) m 0 0 c k -> r <> 0 ->
    ev (fun y => chord asort (Leaf f bx) (pray y) (ball_time X Y DX DY (-1) c r y) (s_id f) (ball_time X Y DX DY 1 c r y) (s_id f)).
  Proof.
    intros f bx r c k TS N. eapply ev_impl; [|apply ev_and; [exact (par_unit _ _ _ _ _ _ _ P)|apply (lim_gt _ _ 0 (lim_chord _ _ _ _ _ _ _ P c r)); nra]].
    cbv beta. intros y _ (U & G). pose proof (sphere_axis ey ez EU f r m c k (X y) (Y y) (DX y) (DY y) TS U G) as H.
    apply chord_leaf; [exact H|]. unfold ball_time. pose proof (sqrt_lt_R0 _ G). lra.
  Qed.
  Lemma ball_point : forall sg c r, (sg = 1 \/ sg = -1) -> r <> 0 -> ev (fun y => let T := ball_time X Y DX DY sg c r y in
    (pat T y - c) * (pat T y - c) + hat_ T y * hat_ T y = r * r).
  Proof.
    intros sg c r SG N. eapply ev_impl; [|apply ev_and; [exact (par_unit _ _ _ _ _ _ _ P)|apply (lim_gt _ _ 0 (lim_chord _ _ _ _ _ _ _ P c r)); nra]].
    cbv beta. intros y _ (U & G). exact (btime_on sg (X y) (Y y) (DX y) (DY y) c r SG U (Rlt_le _ _ G)).
  Qed.

  Lemma ev_box : forall pf pb b, pf < pb -> core_box pf pb b -> ev (fun y => box_hit b (pray y) = true).
  Proof.
    intros pf pb b T C. destruct (core_hit ey ez EU pf pb b T C) as (w & W & H). eapply ev_impl; [|apply (ev_thin w W)].
    cbv beta. intros y _ (D & TH & L & _). apply H; auto.
  Qed.
  Lemma plane_at : forall p y, 1 / 2 < DX y -> pat (plane_time X DX p y) y = p.
  Proof. intros p y D. unfold pat, plane_time. field. lra. Qed.
  Lemma time_le : forall T T' y, 0 < DX y -> pat T y <= pat T' y -> T <= T'.
  Proof. intros T T' y D H. unfold pat in H. apply (Rmult_le_reg_r (DX y)); lra. Qed.

  (** the front side *)
  Lemma front_stage : forall i b s1 f bx r pf pb v (n' : R -> v4) D1, pf < pb -> r <> 0 ->
    turned_surf f (PSphere r) m 0 0 (r + pf) (if rltb 0 r then 1 else -1) -> core_box pf pb b ->
    (0 < r -> D1 = 0 /\ v < 2 * r + pf) -> (r < 0 -> 0 < D1 < 2 * Rabs r) -> pf < v ->
    ev (fun y => spans_face s1 y (plane_time X DX (pf - D1) y) (V4 (-1) 0 0 0) (plane_time X DX v y) (n' y)) ->
    ev (fun y => spans_face (Node i (if rltb 0 r then INTERSECT else DIFFERENCE) b s1 (Leaf f bx)) y
      (ftime (Fin r) (pf) y) (fnorm (-1) (Fin r) (pf) (pat (ftime (Fin r) (pf) y) y) (hat_ (ftime (Fin r) (pf) y) y))
      (plane_time X DX v y) (n' y)).
  Proof.
    intros i b s1 f bx r pf pb v n' D1 T N TS CB CV CC V EV.
    replace (r + pf) with (pf + r) in TS by ring. set (c := pf + r) in *.
    pose proof (lim_ball _ _ _ _ _ _ _ P) as LB. pose proof (lim_plane _ _ _ _ _ _ _ P) as LP.
    unfold ftime. fold c. destruct (rltb 0 r) eqn:E; [apply rltb_true in E; destruct (CV E) as (-> & V2)|apply rltb_false in E; assert (r < 0) as E' by lra; specialize (CC E')]; cbv iota.
    - rewrite Rminus_0_r in EV. assert (AR : Rabs r = r) by (apply Rabs_right; lra).
      eapply ev_impl; [|apply ev_and; [exact EV|apply ev_and; [exact (ball_leaf f bx r c 1 TS N)|apply ev_and; [exact (ev_box pf pb b T CB)|
        apply ev_and; [exact ev_dx|apply ev_and; [exact (ball_point (-1) c r (or_intror eq_refl) N)|
        apply ev_and; [apply (lim_lt2 _ _ _ _ (LB (-1) c r) (LP v)); unfold c; lra|apply (lim_lt2 _ _ _ _ (LP v) (LB 1 c r)); unfold c; lra]]]]]]].
      cbv beta. intros y _ ((ii & jj & C1 & A1 & A2) & C2 & BH & D & PT & L1 & L2). cbv zeta in PT.
      set (T0 := plane_time X DX pf y) in *. set (T1 := ball_time X Y DX DY (-1) c r y) in *.
      assert (PA : pat T0 y = pf) by (apply plane_at; exact D).
      assert (LE : T0 <= T1). { apply (time_le _ _ y); [lra|]. rewrite PA. unfold c in PT. nra. }
      destruct (chord_from asort AS i b s1 (Leaf f bx) (pray y) T0 ii _ jj T1 _ _ _ C1 C2 BH LE L1 L2) as (k & CH & K).
      exists k, jj. split; [exact CH|]. split; [|apply acts_l; exact A2].
      destruct K as [-> | (EQ & ->)].
      + apply acts_r. exists f. split; [left; reflexivity|]. split; [reflexivity|]. split; [apply TS|].
        unfold at_time. eapply sphere_norm; [exact TS|exact N|rewrite AR; ring|exact PT].
      + apply acts_l. rewrite EQ in A1, PA. rewrite PA.
        assert (HZ : hat_ T1 y = 0). { rewrite PA in PT. unfold c in PT. nra. }
        rewrite HZ, vertex_norm. exact A1.
    - assert (AR : Rabs r = - r) by (apply Rabs_left; lra). rewrite AR in CC.
      eapply ev_impl; [|apply ev_and; [exact EV|apply ev_and; [exact (ball_leaf f bx r c (-1) TS N)|apply ev_and; [exact (ev_box pf pb b T CB)|
        apply ev_and; [exact ev_dx|apply ev_and; [exact (ball_point 1 c r (or_introl eq_refl) N)|
        apply ev_and; [apply (lim_lt2 _ _ _ _ (LB (-1) c r) (LP (pf - D1))); unfold c; rewrite AR; lra|
        apply ev_and; [apply (lim_lt2 _ _ _ _ (LP (pf - D1)) (LB 1 c r)); unfold c; rewrite AR; lra|
          apply (lim_lt2 _ _ _ _ (LB 1 c r) (LP v)); unfold c; rewrite AR; lra]]]]]]]].
      cbv beta. intros y _ ((ii & jj & C1 & A1 & A2) & C2 & BH & D & PT & L1 & L2 & L3). cbv zeta in PT.
      pose proof (chord_after asort AS i b s1 (Leaf f bx) (pray y) _ _ _ _ _ _ _ _ C1 C2 BH L1 L2 L3) as CH.
      eexists _, _. split; [exact CH|]. split; [|apply acts_l; exact A2]. apply acts_r.
      exists f. split; [left; reflexivity|]. split; [reflexivity|]. split; [apply TS|].
      unfold at_time. eapply sphere_norm; [exact TS|exact N|rewrite AR; ring|exact PT].
  Qed.

  (** the back side *)
  Lemma back_stage : forall i b s1 f bx r pf pb (Tf : R -> R) (n : R -> v4) D2, pf < pb -> r <> 0 ->
    turned_surf f (PSphere r) m 0 0 (r + pb) (if rltb r 0 then 1 else -1) -> core_box pf pb b ->
    (r < 0 -> D2 = 0 /\ pb - pf < 2 * Rabs r) -> (0 < r -> 0 < D2 < 2 * r) -> lim Tf (pf - x) ->
    ev (fun y => spans_face s1 y (Tf y) (n y) (plane_time X DX (pb + D2) y) (V4 1 0 0 0)) ->
    ev (fun y => spans_face (Node i (if rltb r 0 then INTERSECT else DIFFERENCE) b s1 (Leaf f bx)) y (Tf y) (n y)
      (ftime (Fin r) (pb) y) (fnorm 1 (Fin r) (pb) (pat (ftime (Fin r) (pb) y) y) (hat_ (ftime (Fin r) (pb) y) y))).
  Proof.
    intros i b s1 f bx r pf pb Tf n D2 T N TS CB CV CC LT EV.
    replace (r + pb) with (pb + r) in TS by ring. set (c := pb + r) in *.
    pose proof (lim_ball _ _ _ _ _ _ _ P) as LB. pose proof (lim_plane _ _ _ _ _ _ _ P) as LP.
    unfold ftime. fold c. destruct (rltb r 0) eqn:E; [apply rltb_true in E; destruct (CV E) as (-> & V2)|apply rltb_false in E; assert (0 < r) as E' by lra; specialize (CC E')].
    - replace (rltb 0 r) with false by (symmetry; apply rltb_false; lra). cbv iota.
      rewrite Rplus_0_r in EV. assert (AR : Rabs r = - r) by (apply Rabs_left; lra). rewrite AR in V2.
      eapply ev_impl; [|apply ev_and; [exact EV|apply ev_and; [exact (ball_leaf f bx r c 1 TS N)|apply ev_and; [exact (ev_box pf pb b T CB)|
        apply ev_and; [exact ev_dx|apply ev_and; [exact (ball_point 1 c r (or_introl eq_refl) N)|
        apply ev_and; [apply (lim_lt2 _ _ _ _ (LB (-1) c r) LT); unfold c; rewrite AR; lra|apply (lim_lt2 _ _ _ _ LT (LB 1 c r)); unfold c; rewrite AR; lra]]]]]]].
      cbv beta. intros y _ ((ii & jj & C1 & A1 & A2) & C2 & BH & D & PT & L1 & L2). cbv zeta in PT.
      set (T0 := plane_time X DX (pb) y) in *. set (T1 := ball_time X Y DX DY 1 c r y) in *.
      assert (PA : pat T0 y = pb) by (apply plane_at; exact D).
      assert (LE : T1 <= T0). { apply (time_le _ _ y); [lra|]. rewrite PA. unfold c in PT. nra. }
      destruct (chord_upto asort AS i b s1 (Leaf f bx) (pray y) (Tf y) ii T0 jj _ _ T1 _ C1 C2 BH L1 L2 LE) as (k & CH & K).
      exists ii, k. split; [exact CH|]. split; [apply acts_l; exact A1|].
      destruct K as [-> | (EQ & ->)].
      + apply acts_r. exists f. split; [left; reflexivity|]. split; [reflexivity|]. split; [apply TS|].
        unfold at_time. eapply sphere_norm; [exact TS|exact N|rewrite AR; ring|exact PT].
      + apply acts_l. rewrite EQ in A2, PA. rewrite PA.
        assert (HZ : hat_ T1 y = 0). { rewrite PA in PT. unfold c in PT. nra. }
        rewrite HZ, vertex_norm. exact A2.
    - replace (rltb 0 r) with true by (symmetry; apply rltb_true; lra). cbv iota.
      assert (AR : Rabs r = r) by (apply Rabs_right; lra).
      eapply ev_impl; [|apply ev_and; [exact EV|apply ev_and; [exact (ball_leaf f bx r c (-1) TS N)|apply ev_and; [exact (ev_box pf pb b T CB)|
        apply ev_and; [exact ev_dx|apply ev_and; [exact (ball_point (-1) c r (or_intror eq_refl) N)|
        apply ev_and; [apply (lim_lt2 _ _ _ _ LT (LB (-1) c r)); unfold c; rewrite AR; lra|
        apply ev_and; [apply (lim_lt2 _ _ _ _ (LB (-1) c r) (LP (pb + D2))); unfold c; rewrite AR; lra|
          apply (lim_lt2 _ _ _ _ (LP (pb + D2)) (LB 1 c r)); unfold c; rewrite AR; lra]]]]]]]].
      cbv beta. intros y _ ((ii & jj & C1 & A1 & A2) & C2 & BH & D & PT & L1 & L2 & L3). cbv zeta in PT.
      pose proof (chord_before asort AS i b s1 (Leaf f bx) (pray y) _ _ _ _ _ _ _ _ C1 C2 BH L1 L2 L3) as CH.
      eexists _, _. split; [exact CH|]. split; [apply acts_l; exact A1|]. apply acts_r.
      exists f. split; [left; reflexivity|]. split; [reflexivity|]. split; [apply TS|].
      unfold at_time. eapply sphere_norm; [exact TS|exact N|rewrite AR; ring|exact PT].
  Qed.
End Lens.

(** ** The parts of a built lens *)
Lemma side_cases : forall convex r centre m T s, erase s = turned_side convex (Fin r) centre m T -> tree_ok s -> boxes_current s ->
  exists i b s1 f bx as', s = Node i (if convex r then INTERSECT else DIFFERENCE) b s1 (Leaf f bx) /\ erase s1 = T /\
    turned_surf f (PSphere r) m 0 0 (centre r) (if convex r then 1 else -1) /\ tree_ok s1 /\ boxes_current s1 /\
    bx = surf_box (PSphere r) (turned_at (centre r)) /\ argsort_ok as' /\ b = csg_box as' (if convex r then INTERSECT else DIFFERENCE) (shape_box s1) bx.
Proof.
  intros convex r centre m T s E TO BC. cbn [turned_side] in E. destruct s as [f b|i op b s1 s2]; [discriminate|]. cbn [erase] in E. injection E as -> E1 E2.
  destruct TO as (T1 & T2). destruct BC as (B1 & B2 & as' & AO & EB). destruct (erase_leaf _ _ _ _ _ _ _ E2 T2) as (f & bx & -> & TS & OK).
  cbn [shape_box boxes_current] in *. exists i, b, s1, f, bx, as'. split; [reflexivity|]. split; [exact E1|]. split; [exact TS|]. split; [exact T1|]. split; [exact B1|].
  split; [|split; [exact AO|exact EB]]. rewrite B2. destruct TS as (-> & _ & _ & _).
  cbn [erase] in E2. injection E2 as _ _ EW _. rewrite EW. unfold turned_at. rewrite tw_eq. reflexivity.
Qed.
Lemma ball_core : forall r c pf pb, r <> 0 -> c - Rabs r <= pf -> pb <= c + Rabs r -> core_box pf pb (surf_box (PSphere r) (turned_at c)).
Proof.
  intros r c pf pb N L1 L2. assert (PC : prim_corners (PSphere r) = ((- r, - r, - r), (r, r, r))) by reflexivity.
  destruct (turned_box (PSphere r) c r r (- r) r PC) as (BY & BZ). pose proof (turned_box_x (PSphere r) c r r (- r) r PC) as BX.
  rewrite min_abs, max_abs in BX. pose proof (Rabs_pos_lt _ N). exists (- Rabs r + c), (Rabs r + c), (Rabs r), (Rabs r).
  split; [exact BX|]. repeat (split; [lra|]). auto.
Qed.
Lemma aperture_core : forall ap th p c pf pb, ap_ok ap -> create_aperture ap th = Some p -> 0 <= th -> c - th / 2 <= pf -> pb <= c + th / 2 ->
  core_box pf pb (surf_box p (turned_at c)).
Proof.
  intros ap th p c pf pb A E T L1 L2.
  assert (exists w l, 0 < w /\ 0 < l /\ prim_corners p = ((- w, - l, - (th / 2)), (w, l, th / 2))) as (w & l & W & L & PC).
  { destruct ap as [d|a b]; cbn [create_aperture ap_ok] in *.
    - injection E as <-. exists (d / 2), (d / 2). repeat split; try lra. cbn [prim_corners]. replace (- th / 2) with (- (th / 2)) by field. reflexivity.
    - destruct (rltb 0 a && rltb 0 b)%bool; [|discriminate]. injection E as <-. exists (a / 2), (b / 2). repeat split; try lra. cbn [prim_corners].
      replace (- th / 2) with (- (th / 2)) by field. replace (- a / 2) with (- (a / 2)) by field. replace (- b / 2) with (- (b / 2)) by field. reflexivity. }
  destruct (turned_box p c w l _ _ PC) as (BY & BZ). pose proof (turned_box_x p c w l _ _ PC) as BX.
  rewrite Rmin_left, Rmax_right in BX by lra. rewrite (Rabs_right w) in BY by lra. rewrite (Rabs_right l) in BZ by lra.
  exists (- (th / 2) + c), (th / 2 + c), w, l. split; [exact BX|]. repeat (split; [lra|]). auto.
Qed.
