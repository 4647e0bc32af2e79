(** * RodFacts: what rods do to the rays of a trace *)
From Coq Require Import Reals Lra Lia List Bool ZArith Psatz.
Import ListNotations.
From Verif Require Import XR XRFacts Arr Lin LinFacts Ops OpsFacts SpecOptics Prim Csg Surf SpecGeom SpecTree SpecNormal CsgProps SurfFacts TreeFacts World SpecWorld Tracer SpecTrace
  PrimFacts2 TraceFacts3 TraceFacts5 TraceFacts6 TraceFacts7 TraceProps MirrorTrace SpecImages ImageFacts ImageFacts2 ImageFacts3 Components SpecComponents BuildFacts
  ComponentFacts ComponentFacts2 ComponentFacts3 SpecEdges SpecMotion MotionFacts MirrorFacts2 PrismLaw PrismFacts PrismProps SpecRod.
Open Scope R_scope.

Lemma near_isclose : forall v c, isclose v c = true <-> near v c.
Proof. intros v c. unfold isclose, near. rewrite rleb_true. unfold atol, rtol. split; lra. Qed.
Lemma not_near : forall v c, ~ near v c -> isclose v c = false.
Proof. intros v c N. destruct (isclose v c) eqn:E; auto. apply near_isclose in E. contradiction. Qed.
Lemma near_self : forall v, isclose v v = true.
Proof. exact isclose_refl. Qed.

(** where the points of a rod are in its own coordinates *)
Lemma rod_point : forall f c e r lo hi x, rod f c e r lo hi -> is_inverse (s_world f) (s_obj f) -> vw x = 1 ->
  exists q1 q2 q3, x = mapply (s_world f) (V4 q1 q2 q3 1) /\ height c e x = q3 /\ off_axis c e x = mapply (s_world f) (V4 q1 q2 0 0) /\
    vdot (off_axis c e x) (off_axis c e x) = q1 * q1 + q2 * q2.
Proof.
  intros f c e r lo hi x (RP & EP & ISO & EC & EE & NS) IV W. assert (AF : affine (s_world f)) by apply ISO.
  assert (AO : affine (s_obj f)) by (eapply affine_inverse; eauto). assert (WQ : vw (mapply (s_obj f) x) = 1) by (rewrite affine_w; auto).
  pose proof (inverse_apply_r _ _ x IV) as QE. destruct (mapply (s_obj f) x) as [q1 q2 q3 q4]. cbn [vw] in WQ. subst q4. exists q1, q2, q3. split; [symmetry; exact QE|].
  destruct ISO as (_ & _ & IS).
  assert (DX : vsub x c = mapply (s_world f) (V4 q1 q2 q3 0)) by (rewrite <- QE, <- EC, <- mapply_sub; f_equal; unfold pt, vsub, vopp, vadd, vscale; cbn; f_equal; ring).
  assert (HT : height c e x = q3) by (unfold height; rewrite DX, <- EE, IS by reflexivity; unfold vdot; cbn; ring).
  assert (OFF : off_axis c e x = mapply (s_world f) (V4 q1 q2 0 0)).
  { unfold off_axis. rewrite HT, DX, <- EE, <- mapply_scale, <- mapply_sub. f_equal. unfold vsub, vopp, vadd, vscale; cbn. f_equal; ring. }
  split; [exact HT|]. split; [exact OFF|]. rewrite OFF, IS by reflexivity. unfold vdot; cbn. ring.
Qed.
Lemma rod_axis : forall f c e r lo hi, rod f c e r lo hi -> unit e /\ vw e = 0 /\ vw c = 1.
Proof.
  intros f c e r lo hi (RP & EP & ISO & EC & EE & NS). split; [|split].
  - unfold unit. rewrite <- EE. destruct ISO as (_ & _ & IS). rewrite IS by reflexivity. unfold vdot; cbn. ring.
  - rewrite <- EE, affine_w by apply ISO. reflexivity.
  - rewrite <- EC, affine_w by apply ISO. reflexivity.
Qed.
Lemma off_perp : forall c e x, unit e -> vdot (off_axis c e x) e = 0.
Proof. intros c e x U. unfold off_axis, height. rewrite vdot_sub_l, vdot_scale_l. unfold unit in U. rewrite U. ring. Qed.
Lemma rod_side_normal : forall f c e r lo hi x, rod f c e r lo hi -> is_inverse (s_world f) (s_obj f) -> vw x = 1 ->
  vdot (off_axis c e x) (off_axis c e x) = r * r -> ~ near (height c e x) lo -> ~ near (height c e x) hi ->
  world_normal f x = Some (vscale (/ r) (off_axis c e x)) /\ unit (vscale (/ r) (off_axis c e x)).
Proof.
  intros f c e r lo hi x RD IV W ON NL NH. destruct (rod_point f c e r lo hi x RD IV W) as (q1 & q2 & q3 & EX & HT & OFF & SQ). rewrite HT in NL, NH. rewrite SQ in ON.
  destruct RD as (RP & EP & ISO & EC & EE & NS).
  assert (UN : unit (V4 (/ r * q1) (/ r * q2) 0 0)).
  { unfold unit, vdot; cbn [vx vy vz vw]. transitivity (/ r * / r * (q1 * q1 + q2 * q2)); [ring|]. rewrite ON. field. lra. }
  assert (PN : prim_normal (s_prim f) (V4 q1 q2 q3 1) = Some (V4 (/ r * q1) (/ r * q2) 0 0)).
  { rewrite EP. cbn [prim_normal]. unfold cylinder_normal. cbn [vx vy vz]. rewrite (not_near _ _ NL), (not_near _ _ NH). unfold vnormalize.
    assert (S1 : vdot (V4 q1 q2 0 0) (V4 q1 q2 0 0) = r * r) by (unfold vdot; cbn [vx vy vz vw]; lra).
    destruct (Req_EM_T (vdot (V4 q1 q2 0 0) (V4 q1 q2 0 0)) 0) as [Z|_]; [nra|]. unfold vnorm. rewrite S1, sqrt_square by lra. unfold vscale; cbn. do 2 f_equal; ring. }
  pose proof (placed_normal f _ 1 _ NS ISO IV PN UN eq_refl) as WN. rewrite <- EX in WN.
  assert (E : vscale 1 (mapply (s_world f) (V4 (/ r * q1) (/ r * q2) 0 0)) = vscale (/ r) (off_axis c e x)).
  { rewrite OFF, <- !mapply_scale. f_equal. unfold vscale; cbn. f_equal; ring. }
  rewrite E in WN. split; [exact WN|]. unfold unit. rewrite vdot_scale_l, vdot_scale_r, SQ, ON. field. lra.
Qed.
Lemma rod_cap_normal : forall f c e r lo hi x, rod f c e r lo hi -> is_inverse (s_world f) (s_obj f) -> vw x = 1 -> ~ near lo hi ->
  (height c e x = lo -> world_normal f x = Some (vscale (-1) e)) /\ (height c e x = hi -> world_normal f x = Some (vscale 1 e)).
Proof.
  intros f c e r lo hi x RD IV W NLH. destruct (rod_point f c e r lo hi x RD IV W) as (q1 & q2 & q3 & EX & HT & _). rewrite HT.
  destruct RD as (RP & EP & ISO & EC & EE & NS). split; intros ->.
  - assert (UN : unit (V4 0 0 (-1) 0)) by (unfold unit, vdot; cbn; ring).
    assert (PN : prim_normal (s_prim f) (V4 q1 q2 lo 1) = Some (V4 0 0 (-1) 0)).
    { rewrite EP. cbn [prim_normal]. unfold cylinder_normal. cbn [vx vy vz]. rewrite (not_near _ _ NLH), near_self. apply vnormalize_unit. exact UN. }
    pose proof (placed_normal f _ 1 _ NS ISO IV PN UN eq_refl) as WN. rewrite <- EX in WN. rewrite WN. rewrite <- EE, <- !mapply_scale. do 2 f_equal. unfold vscale; cbn. f_equal; ring.
  - assert (UN : unit (V4 0 0 1 0)) by (unfold unit, vdot; cbn; ring).
    assert (PN : prim_normal (s_prim f) (V4 q1 q2 hi 1) = Some (V4 0 0 1 0)).
    { rewrite EP. cbn [prim_normal]. unfold cylinder_normal. cbn [vx vy vz]. rewrite near_self. apply vnormalize_unit. exact UN. }
    pose proof (placed_normal f _ 1 _ NS ISO IV PN UN eq_refl) as WN. rewrite <- EX in WN. rewrite WN. rewrite EE. reflexivity.
Qed.

(** the next leg runs from the end of the last to its own *)
Lemma next_leg : forall asort comps w w', follows w w' -> leg asort comps w' -> exists L, 0 < L /\ here (row_end w') = vadd (here (row_end w)) (vscale L (row_tilt w')).
Proof.
  intros asort comps w w' (ST & _) (U & D & l & LP & E & _). assert (OFF : 0 < ray_offset_value) by (unfold ray_offset_value; lra). exists (ray_offset_value + l). split; [lra|].
  rewrite E, ST. revert D. destruct (row_end w) as [s1 s2 s3 s4], (row_tilt w') as [d1 d2 d3 d4]. unfold here, vset_w, vadd, vscale; cbn [vx vy vz vw]. intros ->. f_equal; ring.
Qed.
Lemma height_step : forall c e x d L, height c e (vadd x (vscale L d)) = height c e x + L * vdot d e.
Proof. intros [c1 c2 c3 c4] [e1 e2 e3 e4] [x1 x2 x3 x4] [d1 d2 d3 d4] L. unfold height, vdot, vsub, vopp, vadd, vscale; cbn. ring. Qed.
Lemma off_step : forall c e x d L, off_axis c e (vadd x (vscale L d)) = vadd (off_axis c e x) (vscale L (vsub d (vscale (vdot d e) e))).
Proof.
  intros c e x d L. unfold off_axis. rewrite height_step. set (h := height c e x). set (a := vdot d e). clearbody h a. destruct c as [c1 c2 c3 c4], e as [e1 e2 e3 e4], x as [x1 x2 x3 x4], d as [d1 d2 d3 d4].
  unfold vsub, vopp, vadd, vscale; cbn. f_equal; ring.
Qed.
Lemma mirrored_axis : forall v d n e, mirrored v d n -> vdot n e = 0 -> vdot d e = vdot v e.
Proof.
  intros v d n e (M1 & M2) P. assert (X : vdot (tangential d n) e = vdot (tangential v n) e) by (rewrite M2; reflexivity).
  unfold tangential in X. rewrite !vdot_sub_l, !vdot_scale_l, P in X. lra.
Qed.
Lemma vdot_sub_r : forall a b c, vdot a (vsub b c) = vdot a b - vdot a c.
Proof. intros a b c. rewrite vdot_comm, vdot_sub_l, !(vdot_comm a). reflexivity. Qed.
(** the flat part of a direction *)
Lemma flat_dot : forall d e o, unit e -> vdot o e = 0 -> vdot (vsub d (vscale (vdot d e) e)) o = vdot d o.
Proof. intros d e o U P. rewrite vdot_sub_l, vdot_scale_l, (vdot_comm e o), P. ring. Qed.
Lemma flat_sq : forall d e, unit d -> unit e -> vdot (vsub d (vscale (vdot d e) e)) (vsub d (vscale (vdot d e) e)) = 1 - vdot d e * vdot d e.
Proof. intros d e U V. unfold unit in *. rewrite vdot_sub_l, !vdot_sub_r, !vdot_scale_l, !vdot_scale_r, (vdot_comm e d), U, V. ring. Qed.
(** from one point of the side to another *)
Lemma side_chord : forall c e r x d L, unit e -> unit d -> 0 < L -> vdot (off_axis c e x) (off_axis c e x) = r * r ->
  let x' := vadd x (vscale L d) in vdot (off_axis c e x') (off_axis c e x') = r * r ->
  L * (1 - vdot d e * vdot d e) = - 2 * vdot d (off_axis c e x) /\ vdot d (off_axis c e x') = - vdot d (off_axis c e x).
Proof.
  intros c e r x d L UE UD LP O x' O'. unfold x' in *. rewrite off_step in *. pose proof (off_perp c e x UE) as PX. set (o := off_axis c e x) in *.
  pose proof (flat_dot d e o UE PX) as FD. pose proof (flat_sq d e UD UE) as FS. set (g := vsub d (vscale (vdot d e) e)) in *.
  assert (GE : vdot d g = 1 - vdot d e * vdot d e). { unfold g. rewrite vdot_sub_r, vdot_scale_r. unfold unit in UD. rewrite UD. ring. }
  rewrite vdot_add_l, !vdot_add_r, !vdot_scale_l, !vdot_scale_r, (vdot_comm o g), FD, FS, O in O'.
  assert (X : L * (1 - vdot d e * vdot d e) = - 2 * vdot d o) by nra. split; [exact X|]. rewrite vdot_add_r, vdot_scale_r, GE. lra.
Qed.
