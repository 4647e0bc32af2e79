(** * SymmetryComponents: the lenses and mirrors of the factories are symmetric about the x axis *)
From Coq Require Import Reals List Bool ZArith Lra Lia Arith Psatz.
Import ListNotations.
From Verif Require Import XR XRFacts Arr Lin LinFacts Ops Prim Csg CsgProps Surf SpecGeom SpecTree BoxFacts SpanFacts World SpecWorld WorldFacts3 BuildFacts Components SpecComponents
  ComponentFacts ComponentFacts2 Tracer SpecTrace SpecMotion MotionFacts MotionFacts2 MotionFacts3 SpecSymmetry SymmetryFacts.
Open Scope R_scope.

Definition axial_prim (p : prim) : Prop :=
  symmetry_of p (flip (-1) 1 1) /\ symmetry_of p (flip 1 (-1) 1) /\
  exists x y z0 z1, prim_corners p = ((- x, - y, z0), (x, y, z1)) /\ x <> 0 /\ y <> 0.
Fixpoint axial (T : ptree) : Prop :=
  match T with
  | TLeaf p _ w _ => axial_prim p /\ exists c, w = mmove 0 0 c
  | TNode _ a b => axial a /\ axial b
  end.
Definition axial_call (c : call) : Prop :=
  match c with
  | CSurface p _ => axial_prim p
  | CMotion _ (Move x y z) => x = 0 /\ y = 0
  | CMotion _ _ => False
  | _ => True
  end.
Definition axial_opt (t : option ptree) : Prop := match t with Some T => axial T | None => True end.
Lemma axial_inv : forall T, axial T -> axial (inv T).
Proof. induction T as [p m w k|op a IHa b IHb]; cbn [axial inv]; tauto. Qed.
Lemma axial_mv : forall z T, axial T -> axial (mv (mmove 0 0 z) T).
Proof.
  intros z. induction T as [p m w k|op a IHa b IHb]; cbn [axial mv]; [|tauto]. intros (P & c & ->). split; [exact P|].
  exists (z + c). rewrite mmove_mmove, !Rplus_0_r. reflexivity.
Qed.
Lemma axial_set : forall env k v, Forall axial_opt env -> axial_opt v -> Forall axial_opt (set_nth env k v).
Proof. induction env as [|a env IH]; intros [|k] v F V; cbn [set_nth]; auto; inversion F; subst; constructor; auto. Qed.
Lemma axial_nth : forall env k T, Forall axial_opt env -> nth_error env k = Some (Some T) -> axial T.
Proof. intros env k T F N. apply nth_error_In in N. rewrite Forall_forall in F. exact (F _ N). Qed.
Lemma axial_track : forall cs env env', Forall axial_call cs -> Forall axial_opt env -> track cs env = Some env' -> Forall axial_opt env'.
Proof.
  induction cs as [|c cs IH]; intros env env' F A T; cbn [track] in T; [injection T as <-; exact A|].
  inversion F as [|? ? C F']; subst. destruct (track_call c env) as [e|] eqn:E; [|discriminate]. apply (IH e env'); auto. clear T IH F F' env'.
  destruct c; cbn [track_call axial_call] in *; try discriminate.
  - destruct (prim_init p); [|discriminate]. injection E as <-. apply Forall_app. split; [exact A|]. constructor; [|constructor].
    cbn [axial_opt axial]. split; [exact C|]. exists 0. reflexivity.
  - destruct (Nat.eqb l r); [discriminate|]. destruct (nth_error env l) as [[TA|]|] eqn:NA; try discriminate.
    destruct (nth_error env r) as [[TB|]|] eqn:NB; try discriminate. injection E as <-.
    apply Forall_app. split; [apply axial_set; [apply axial_set; [exact A|exact I]|exact I]|]. constructor; [|constructor].
    cbn [axial_opt axial]. split; [eapply axial_nth; eauto|]. destruct op; try apply axial_inv; eapply axial_nth; eauto.
  - destruct (nth_error env l) as [[TA|]|] eqn:NA; try discriminate. destruct o; try contradiction. destruct C as [-> ->].
    cbn [motion_matrix] in E. injection E as <-. apply axial_set; [exact A|]. cbn [axial_opt]. 
    change (M4 (V4 1 0 0 0) (V4 0 1 0 0) (V4 0 0 1 z) (V4 0 0 0 1)) with (mmove 0 0 z). apply axial_mv. eapply axial_nth; eauto.
Qed.

(** ** standing_at *)
Definition turned_at (c : R) : mat := mmul rx90 (mmul ry90 (mmove 0 0 c)).
Lemma turned_apply : forall c v, mapply (turned_at c) v = V4 (vz v + c * vw v) (vx v) (vy v) (vw v).
Proof.
  intros c v. unfold turned_at. rewrite !mapply_mmul. unfold rx90, ry90, mmove, mapply, vdot; cbn [row0 row1 row2 row3 vx vy vz vw]. f_equal; ring.
Qed.
Lemma mat_ext : forall a b, (forall v, mapply a v = mapply b v) -> a = b.
Proof.
  intros [[a00 a01 a02 a03] [a10 a11 a12 a13] [a20 a21 a22 a23] [a30 a31 a32 a33]] [[b00 b01 b02 b03] [b10 b11 b12 b13] [b20 b21 b22 b23] [b30 b31 b32 b33]] E.
  pose proof (E (V4 1 0 0 0)) as E0. pose proof (E (V4 0 1 0 0)) as E1. pose proof (E (V4 0 0 1 0)) as E2. pose proof (E (V4 0 0 0 1)) as E3. clear E.
  unfold mapply, vdot in *; cbn [row0 row1 row2 row3 vx vy vz vw] in *.
  injection E0 as A0 A1 A2 A3. injection E1 as B0 B1 B2 B3. injection E2 as C0 C1 C2 C3. injection E3 as D0 D1 D2 D3.
  f_equal; f_equal; lra.
Qed.
Lemma turned_flip_y : forall c, mmul mirror_y (turned_at c) = mmul (turned_at c) (flip (-1) 1 1).
Proof.
  intro c. apply mat_ext. intro v. unfold mirror_y. rewrite !mapply_mmul, !turned_apply, !mapply_flip. cbn [vx vy vz vw]. f_equal; ring.
Qed.
Lemma turned_flip_z : forall c, mmul mirror_z (turned_at c) = mmul (turned_at c) (flip 1 (-1) 1).
Proof.
  intro c. apply mat_ext. intro v. unfold mirror_z. rewrite !mapply_mmul, !turned_apply, !mapply_flip. cbn [vx vy vz vw]. f_equal; ring.
Qed.
Lemma turned_slid : forall x c, mmul (mmove x 0 0) (turned_at c) = turned_at (c + x).
Proof.
  intros x c. apply mat_ext. intro v. rewrite mapply_mmul, !turned_apply. unfold mmove, mapply, vdot; cbn [row0 row1 row2 row3 vx vy vz vw]. f_equal; ring.
Qed.
Lemma mv_none : forall T, mv (mmove 0 0 0) T = T.
Proof. induction T as [p m w k|op a IHa b IHb]; cbn [mv]; [rewrite (mmul_mid_l w : mmul (mmove 0 0 0) w = w); reflexivity|rewrite IHa, IHb; reflexivity]. Qed.
Lemma min_abs : forall x, Rmin (- x) x = - Rabs x.
Proof. intro x. unfold Rmin, Rabs. destruct (Rle_dec (- x) x), (Rcase_abs x); lra. Qed.
Lemma max_abs : forall x, Rmax (- x) x = Rabs x.
Proof. intro x. unfold Rmax, Rabs. destruct (Rle_dec (- x) x), (Rcase_abs x); lra. Qed.
Lemma turned_box : forall p c x y z0 z1, prim_corners p = ((- x, - y, z0), (x, y, z1)) ->
  spany (surf_box p (turned_at c)) = (Fin (- Rabs x), Fin (Rabs x)) /\ spanz (surf_box p (turned_at c)) = (Fin (- Rabs y), Fin (Rabs y)).
Proof.
  intros p c x y z0 z1 E. unfold surf_box. rewrite bounding_box_spans by (intro X; apply map_eq_nil in X; exact (bounding_points_nonempty p X)).
  cbn [spany spanz]. rewrite bounding_points_alt, E. cbn [fst snd]. unfold corner_points. rewrite !min_abs, !max_abs.
  pose proof (Rabs_pos x). pose proof (Rabs_pos y).
  cbn [flat_map map app]. rewrite !turned_apply. unfold point; cbn [vx vy vz vw]. unfold list_min, list_max; cbn [fold_left].
  assert (AB : forall u, 0 <= u -> Rmin (- u) (- u) = - u /\ Rmin (- u) u = - u /\ Rmax (- u) (- u) = - u /\ Rmax (- u) u = u /\ Rmax u u = u /\ Rmax u (- u) = u).
  { intros u U. unfold Rmin, Rmax. repeat split; repeat (destruct (Rle_dec _ _)); lra. }
  destruct (AB _ H) as (A1 & A2 & A3 & A4 & A5 & A6). destruct (AB _ H0) as (B1 & B2 & B3 & B4 & B5 & B6).
  repeat first [rewrite A1|rewrite A2|rewrite A3|rewrite A4|rewrite A5|rewrite A6|rewrite B1|rewrite B2|rewrite B3|rewrite B4|rewrite B5|rewrite B6]. auto.
Qed.

Definition centred_box (b : box) : Prop :=
  exists Y Z, 0 < Y /\ 0 < Z /\ spany b = (Fin (- Y), Fin Y) /\ spanz b = (Fin (- Z), Fin Z).
Lemma carried_same : forall a, carried_side 1 0 a a.
Proof. intros [[a| | |] [b| | |]]; left; (split; [reflexivity|]); cbn [fst snd xadd]; rewrite ?Rplus_0_r; reflexivity. Qed.
Lemma carried_back : forall Y, carried_side (-1) 0 (Fin (- Y), Fin Y) (Fin (- Y), Fin Y).
Proof. intro Y. right. split; [reflexivity|]. cbn [fst snd xsub xopp xadd]. f_equal; f_equal; ring. Qed.
Lemma centred_mirror : forall b, centred_box b -> moved_box mirror_y b b /\ moved_box mirror_z b b.
Proof.
  intros b (Y & Z & _ & _ & EY & EZ). unfold moved_box, side_of, mirror_y, mirror_z, flip; cbn [row0 row1 row2 vx vy vz vw].
  split; (split; [left; repeat (split; [reflexivity|]); apply carried_same|split; [right; left; repeat (split; [reflexivity|])|right; right; repeat (split; [reflexivity|])]]);
    rewrite ?EY, ?EZ; try apply carried_same; apply carried_back.
Qed.
Lemma centred_combine : forall asort, argsort_ok asort -> forall op a b, op <> DIFFERENCE -> 0 < a -> 0 < b ->
  exists c, 0 < c /\ combine_span asort op (Fin (- a), Fin a) (Fin (- b), Fin b) = (Fin (- c), Fin c).
Proof.
  intros asort AS op a b ND A B.
  assert (OV : Rmax (- a) (- b) < Rmin a b) by (unfold Rmax, Rmin; destruct (Rle_dec (- a) (- b)), (Rle_dec a b); lra).
  destruct op; [exists (Rmax a b)|exists (Rmin a b)|congruence];
    rewrite ?(union_overlap asort AS), ?(inter_overlap asort AS) by lra; unfold Rmax, Rmin in *;
    destruct (Rle_dec (- a) (- b)), (Rle_dec a b); (split; [lra|f_equal; f_equal; lra]).
Qed.
Lemma centred_csg : forall asort, argsort_ok asort -> forall op a b, centred_box a -> centred_box b -> centred_box (csg_box asort op a b).
Proof.
  intros asort AS op a b A B. destruct op; [| |exact A]; destruct A as (Y & Z & P & Q & EY & EZ), B as (Y' & Z' & P' & Q' & EY' & EZ');
    unfold csg_box, centred_box; cbn [spany spanz]; rewrite EY, EZ, EY', EZ'.
  - destruct (centred_combine asort AS UNION Y Y') as (c & C & ->); auto; [discriminate|]. destruct (centred_combine asort AS UNION Z Z') as (d & D & ->); auto; [discriminate|]. eauto 10.
  - destruct (centred_combine asort AS INTERSECT Y Y') as (c & C & ->); auto; [discriminate|]. destruct (centred_combine asort AS INTERSECT Z Z') as (d & D & ->); auto; [discriminate|]. eauto 10.
Qed.

Lemma axial_shape : forall x0 s T, axial T -> erase s = mv (mmove x0 0 0) (mv rx90 (mv ry90 T)) -> boxes_current s ->
  symmetric mirror_y s /\ symmetric mirror_z s /\ centred_box (shape_box s).
Proof.
  intro x0. induction s as [f b|i op b l IHl r IHr]; intros [p m w k|op' ta tb] A E C; cbn [erase mv] in E; try discriminate.
  - cbn [axial] in A. destruct A as ((S1 & S2 & (x & y & z0 & z1 & PC & NX & NY)) & c & ->). injection E as E1 E2 E3 E4.
    change (mmul rx90 (mmul ry90 (mmove 0 0 c))) with (turned_at c) in E3. rewrite turned_slid in E3. clear - E1 E3 S1 S2 PC NX NY C. revert E3. generalize (c + x0). clear c. intros c E3. cbn [symmetric shape_box boxes_current] in *. unfold symmetric_surf. rewrite E3, E1.
    split; [exists (flip (-1) 1 1); split; [apply turned_flip_y|exact S1]|].
    split; [exists (flip 1 (-1) 1); split; [apply turned_flip_z|exact S2]|].
    subst b. rewrite E1, E3.
    destruct (turned_box p c x y z0 z1 PC) as (BY & BZ). exists (Rabs x), (Rabs y). split; [apply Rabs_pos_lt; auto|]. split; [apply Rabs_pos_lt; auto|]. auto.
  - cbn [axial] in A. destruct A as (TA & TB). injection E as <- E1 E2. cbn [boxes_current] in C. destruct C as (CL & CR & (asort & AS & ->)).
    destruct (IHl ta TA E1 CL) as (L1 & L2 & L3). destruct (IHr tb TB E2 CR) as (R1 & R2 & R3).
    pose proof (centred_csg asort AS op _ _ L3 R3) as K. destruct (centred_mirror _ K) as (K1 & K2). cbn [symmetric shape_box]. tauto.
Qed.

(** ** the factories *)
Lemma built_axial : forall asort prog l env T, argsort_ok asort -> track prog [] = Some env -> nth_error env l = Some (Some T) ->
  right_leaf T = true -> prims_ok T -> Forall axial_call prog -> axial_component asort (turned (Makes prog l)).
Proof.
  intros asort prog l env T AO E N RL PO F.
  assert (A : axial T) by (eapply axial_nth; [eapply axial_track; eauto|exact N]). split.
  - apply (built_turned asort prog l env T _ AO E N RL PO). intros s ER BC _. rewrite <- (mv_none (mv rx90 _)) in ER.
    destruct (axial_shape 0 s T A ER BC) as (A1 & A2 & _). split; auto.
  - intro x. destruct (track_turned _ _ _ _ E N) as (env' & E' & N'). cbn [turned standing_at].
    eexists _, l. split; [reflexivity|]. intros h Nh.
    set (cs := prog ++ [CMotion l (RotY 90 Deg); CMotion l (RotX 90 Deg)]) in *.
    assert (E2 : track (cs ++ [CMotion l (op_move_x x)]) [] = Some (set_nth env' l (Some (mv (mmove x 0 0) (mv rx90 (mv ry90 T)))))).
    { rewrite track_app, E'. cbn [track track_call op_move_x motion_matrix]. rewrite N'. reflexivity. }
    destruct (built_component asort cs l (op_move_x x) h _ (mv (mmove x 0 0) (mv rx90 (mv ry90 T))) AO Nh E2) as (h' & s & R & Sh & Er & TO & BC).
    + rewrite nth_set_nth, Nat.eqb_refl, N'. reflexivity.
    + rewrite !right_leaf_mv. exact RL.
    + do 3 (apply prims_ok_mv; [reflexivity|]). exact PO.
    + exists h', s. do 4 (split; [assumption|]). destruct (axial_shape x s T A Er BC) as (A1 & A2 & _). split; auto.
Qed.
Lemma wide_ok : forall ap, wide ap -> ap_ok ap.
Proof. intros [d|a b]; cbn [wide ap_ok]; unfold atol; lra. Qed.
Lemma sphere_axial : forall r, r <> 0 -> axial_prim (PSphere r).
Proof.
  intros r N. split; [apply flip_turning; unfold sign; lra|]. split; [apply flip_turning; unfold sign; lra|]. exists r, r, (- r), r. auto.
Qed.
Lemma about_flip : forall a b, sign a -> sign b -> about_z (flip a b 1).
Proof. intros a b A B. split; [apply flip_turning; auto; left; reflexivity|reflexivity]. Qed.
Lemma paraboloid_axial : forall f h, 0 < f -> 0 < h -> axial_prim (PParaboloid f h).
Proof.
  intros f h F H. split; [apply about_flip; unfold sign; lra|]. split; [apply about_flip; unfold sign; lra|].
  assert (0 < sqrt (4 * f * h)) by (apply sqrt_lt_R0; nra). cbn [prim_corners]. do 4 eexists. split; [reflexivity|]. lra.
Qed.
Lemma aperture_axial : forall ap th p, wide ap -> create_aperture ap th = Some p -> axial_prim p.
Proof.
  intros [d|a b] th p W E; cbn [create_aperture wide] in *.
  - injection E as <-. split; [apply about_flip; unfold sign; lra|]. split; [apply about_flip; unfold sign; lra|].
    cbn [prim_corners]. do 4 eexists. split; [reflexivity|]. lra.
  - destruct (rltb 0 a && rltb 0 b)%bool; [|discriminate]. injection E as <-.
    assert (CA : centred (- a / 2) (a / 2)) by (split; [field|unfold atol in *; rewrite Rabs_right by lra; lra]).
    assert (CB : centred (- b / 2) (b / 2)) by (split; [field|unfold atol in *; rewrite Rabs_right by lra; lra]).
    split; [exists (-1), 1, 1; unfold sign; intuition lra|]. split; [exists 1, (-1), 1; unfold sign; intuition lra|].
    cbn [prim_corners]. exists (a / 2), (b / 2), (- th / 2), (th / 2). unfold atol in W. split; [|lra]. replace (- a / 2) with (- (a / 2)) by field. replace (- b / 2) with (- (b / 2)) by field. reflexivity.
Qed.

Lemma thick_lens_axial : forall asort r1 r2 t ap m, argsort_ok asort -> wide ap -> 0 <= t ->
  radius_ok r1 (reach ap) -> radius_ok r2 (reach ap) -> axial_component asort (thick_lens r1 r2 t ap m).
Proof.
  intros asort r1 r2 t ap m AO WD T R1 R2. pose proof (wide_ok ap WD) as A. pose proof (reach_pos ap A) as P.
  pose proof (front_depth_pos r1 (reach ap) ltac:(lra) R1) as F1. pose proof (back_depth_pos r2 (reach ap) ltac:(lra) R2) as F2.
  unfold thick_lens. rewrite full_thickness by auto. set (D1 := front_depth r1 (reach ap)) in *. set (D2 := back_depth r2 (reach ap)) in *.
  set (th := t / 2 + D2 + (t / 2 + D1)). set (of := t / 2 + D2 - (t / 2 + D1)).
  destruct (create_aperture_ok ap th A) as (p & Ep). rewrite Ep. cbv zeta.
  assert (T0 : track [CSurface p m; CMotion 0 (op_move_z (of / 2))] [] = Some [Some (TLeaf p m (mmul (mmove 0 0 (of / 2)) mid) 1)]).
  { cbn [track track_call]. rewrite (aperture_init _ _ _ Ep). reflexivity. }
  destruct (lens_side_track (fun r => rltb 0 r) r1 (fun r => r - t / 2) m _ 0%nat _ _ T0 eq_refl eq_refl eq_refl) as (env1 & T1 & E1 & N1 & L1 & RL1 & P1 & _).
  { simpl. split; [|apply affine_mmul; reflexivity]. eapply aperture_prim_ok; [exact A| |exact Ep]. unfold th. lra. }
  { intros r' ->. apply R1. }
  assert (SIDE : forall cv r ce lens, (forall r', r = Fin r' -> r' <> 0) -> Forall axial_call (fst lens) -> Forall axial_call (fst (lens_side cv r ce m lens))).
  { intros cv r ce lens NZ F. destruct r as [r| | |]; cbn [lens_side]; auto. cbn [fst]. apply Forall_app. split; [exact F|].
    constructor; [apply sphere_axial; auto|]. constructor; [split; reflexivity|]. constructor; [exact I|constructor]. }
  assert (F0 : Forall axial_call (fst (lens_side (fun r => rltb 0 r) r1 (fun r => r - t / 2) m ([CSurface p m; CMotion 0 (op_move_z (of / 2))], 0%nat)))).
  { apply SIDE; [intros r' ->; apply R1|]. cbn [fst]. constructor; [eapply aperture_axial; eauto|]. constructor; [split; reflexivity|constructor]. }
  set (l1 := lens_side (fun r => rltb 0 r) r1 (fun r => r - t / 2) m _) in *. rewrite (surjective_pairing l1).
  destruct (lens_side_track (fun r => rltb r 0) r2 (fun r => r + t / 2) m _ _ _ _ E1 N1 L1 RL1 P1) as (env2 & T2 & E2 & N2 & L2 & RL2 & P2 & _).
  { intros r' ->. apply R2. }
  eapply built_axial; [exact AO|exact E2|exact N2|exact RL2|exact P2|]. apply SIDE; [intros r' ->; apply R2|exact F0].
Qed.

Lemma biconvex_axial : forall asort r1 r2 t ap m, argsort_ok asort -> wide ap -> 0 <= t -> r1 <> 0 -> r2 <> 0 ->
  axial_component asort (biconvex_lens (Fin r1) (Fin r2) t ap m).
Proof.
  intros asort r1 r2 t ap m AO WD T N1 N2. pose proof (wide_ok ap WD) as A. unfold biconvex_lens. destruct (create_aperture_ok ap t A) as (p & Ep). rewrite Ep.
  set (T2 := TLeaf (PSphere r2) m (mmul (mmove 0 0 (r1 - t / 2)) mid) 1).
  set (T1 := TLeaf (PSphere r1) m (mmul (mmove 0 0 (- (r1 - t / 2))) mid) 1).
  eapply (built_axial asort _ _ _ (TNode INTERSECT (TNode INTERSECT T2 T1) (TLeaf p m mid 1))); [exact AO|cbn [track track_call]; rewrite (aperture_init _ _ _ Ep); trk|reflexivity|reflexivity| |].
  - simpl. repeat split; auto; try (apply affine_mmul; reflexivity). eapply aperture_prim_ok; eauto.
  - repeat (constructor; [first [eapply aperture_axial; eassumption|apply sphere_axial; assumption|split; reflexivity|exact I]|]). constructor.
Qed.
Lemma plano_axial : forall asort r t ap m, argsort_ok asort -> wide ap -> 0 <= t -> r <> 0 ->
  axial_component asort (plano_convex_lens (Fin r) t ap m).
Proof.
  intros asort r t ap m AO WD T N1. pose proof (wide_ok ap WD) as A. unfold plano_convex_lens. destruct (create_aperture_ok ap t A) as (p & Ep). rewrite Ep.
  set (T1 := TLeaf (PSphere r) m (mmul (mmove 0 0 (- (r - t / 2))) mid) 1).
  eapply (built_axial asort _ _ _ (TNode INTERSECT T1 (TLeaf p m mid 1))); [exact AO|cbn [track track_call]; rewrite (aperture_init _ _ _ Ep); trk|reflexivity|reflexivity| |].
  - simpl. repeat split; auto; try (apply affine_mmul; reflexivity). eapply aperture_prim_ok; eauto.
  - repeat (constructor; [first [eapply aperture_axial; eassumption|apply sphere_axial; assumption|split; reflexivity|exact I]|]). constructor.
Qed.
Lemma plane_mirror_axial : forall asort t ap m, argsort_ok asort -> wide ap -> 0 <= t ->
  axial_component asort (plane_mirror t ap (0, 0) m).
Proof.
  intros asort t ap m AO WD T. pose proof (wide_ok ap WD) as A. unfold plane_mirror. destruct (create_aperture_ok ap t A) as (p & Ep). rewrite Ep.
  eapply (built_axial asort _ _ _ (TLeaf p m (mmul (mmove 0 0 0) mid) 1)); [exact AO|cbn [track track_call fst snd]; rewrite (aperture_init _ _ _ Ep); trk|reflexivity|reflexivity| |].
  - simpl. split; [eapply aperture_prim_ok; eauto|apply affine_mmul; reflexivity].
  - repeat (constructor; [first [eapply aperture_axial; eassumption|split; reflexivity]|]). constructor.
Qed.
Lemma spherical_mirror_axial : forall asort r t ap m, argsort_ok asort -> wide ap -> 0 <= t -> r <> 0 -> reach ap <= Rabs r ->
  axial_component asort (spherical_mirror (Fin r) t ap (0, 0) m).
Proof.
  intros asort r t ap m AO WD T N F. pose proof (wide_ok ap WD) as A.
  unfold spherical_mirror. destruct (create_aperture_ok ap 0 A) as (p0 & Ep0). rewrite Ep0. cbv zeta. clear p0 Ep0.
  cbn [fst snd]. rewrite max_height_reach. replace (sqrt (0 * 0 + 0 * 0)) with 0 by (rewrite Rmult_0_l, Rplus_0_l, sqrt_0; reflexivity). rewrite !Rplus_0_l.
  pose proof (reach_pos ap A) as P.
  assert (HH : 0 <= r * r - reach ap * reach ap) by (apply (room r _ (reach ap)); nra).
  unfold np_sqrt. replace (rleb 0 (r * r - reach ap * reach ap)) with true by (symmetry; apply rleb_true; exact HH).
  set (front := Rabs r - sqrt (r * r - reach ap * reach ap)).
  assert (F0 : 0 <= front).
  { pose proof (side_depth_pos r (reach ap) ltac:(lra) F) as X. unfold side_depth in X. rewrite abs_sq in X. exact X. }
  destruct (create_aperture_ok ap (t + front) A) as (p & Ep). rewrite Ep. destruct (Req_EM_T r 0) as [|_]; [contradiction|].
  set (zc := if rltb 0 r then (front + t) / 2 - t else t - (front + t) / 2).
  set (R0 := if rltb 0 r then r else Rabs r).
  assert (NR : R0 <> 0) by (unfold R0; destruct (rltb 0 r); [exact N|apply Rabs_no_R0; exact N]).
  eapply (built_axial asort _ _ _ (TNode DIFFERENCE (TLeaf p Absorber (mmul (mmove 0 0 zc) (mmul (mmove 0 0 0) mid)) 1)
     (TLeaf (PSphere R0) m (mmul (mmove 0 0 r) mid) (-1)))); [exact AO|cbn [track track_call]; rewrite (aperture_init _ _ _ Ep); trk|reflexivity|reflexivity| |].
  - simpl. split; [split; [eapply aperture_prim_ok; [exact A| |exact Ep]; lra|apply affine_mmul; [reflexivity|apply affine_mmul; reflexivity]]|].
    split; [exact NR|apply affine_mmul; reflexivity].
  - repeat (constructor; [first [eapply aperture_axial; eassumption|apply sphere_axial; assumption|split; reflexivity|exact I]|]). constructor.
Qed.
Lemma parabolic_mirror_axial : forall asort f t ap m, argsort_ok asort -> wide ap -> 0 <= t -> 0 < f ->
  axial_component asort (parabolic_mirror f t ap (0, 0) m).
Proof.
  intros asort f t ap m AO WD T F. pose proof (wide_ok ap WD) as A. unfold parabolic_mirror. cbv zeta.
  set (off := (0, 0) : R * R).
  change (match ap with Round d => sqrt (fst off * fst off + snd off * snd off) + d
    | Pair a b => sqrt ((Rabs (fst off) + a / 2) * (Rabs (fst off) + a / 2) + (Rabs (snd off) + b / 2) * (Rabs (snd off) + b / 2)) end) with (far_edge ap off).
  destruct (Req_EM_T f 0) as [E|_]; [lra|]. change (1 / (4 * f) * (far_edge ap off * far_edge ap off)) with (para_front f ap off).
  pose proof (para_front_pos f ap off A F) as FP.
  destruct (create_aperture_ok ap (t + para_front f ap off) A) as (p & Ep). rewrite Ep.
  assert (TR : track [CSurface p Absorber; CMotion 0 (Move (fst off) (snd off) 0); CMotion 0 (op_move_z ((t + para_front f ap off) / 2 - t));
      CSurface (PParaboloid f (15 / 10 * para_front f ap off)) m; CCsg DIFFERENCE 0 1; CMotion 2 (op_move_z (- f))] [] = Some [None; None; Some (para_tree p f t ap off m)]).
  { cbn [track track_call]. rewrite (aperture_init _ _ _ Ep). cbn [nth_error motion_matrix set_nth op_move_z app]. unfold prim_init.
    replace (rleb f 0) with false by (symmetry; apply rleb_false; lra).
    replace (rleb (15 / 10 * para_front f ap off) 0) with false by (symmetry; apply rleb_false; lra). cbn [orb]. unfold para_tree. trk. }
  eapply (built_axial asort _ _ _ (para_tree p f t ap off m)); [exact AO|exact TR|reflexivity|reflexivity| |].
  - unfold para_tree. apply prims_ok_mv; [reflexivity|]. simpl. split.
    + split; [eapply aperture_prim_ok; [exact A| |exact Ep]; lra|apply affine_mmul; [reflexivity|apply affine_mmul; reflexivity]].
    + split; [|reflexivity]. lra.
  - repeat (constructor; [first [eapply aperture_axial; eassumption|apply paraboloid_axial; lra|split; reflexivity|exact I]|]). constructor.
Qed.
