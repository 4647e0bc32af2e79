(** * QuatExamples: turned and scaled objects *)
From Coq Require Import Reals List Bool Lra Lia.
Import ListNotations.
From Verif Require Import XR XRFacts Arr Lin LinFacts Prim Csg Surf World SpecWorld Quat SpecQuat QuatFacts
  WorldFacts WorldFacts2 WorldFacts3 WorldFacts4 WorldFacts5 WorldExamples WorldProps QuatProps.
Open Scope R_scope.

(** one plain object, at [W] *)
Definition alone (h : heap) (W : mat) : Prop :=
  exists o, h_objs h = [o] /\ o_kind o = KPlain /\ o_watch o = [HMat 0%nat] /\ o_world o = W.
Lemma alone_get : forall h W, alone h W -> exists o, get h 0%nat = Some o /\ get_world_transform o = W.
Proof. intros h W (o & E & _ & _ & Ww). exists o. unfold get. rewrite E. auto. Qed.
Lemma alone_moves : forall asort h W m t, alone h W -> motion_matrix m = Some t ->
  dir_tolerance <= vnorm (mapply (mmul t W) obj_direction) -> mdet (mmul t W) <> 0 ->
  exists h', apply_motion asort 0%nat m h = Ok h' /\ alone h' (mmul t W).
Proof.
  intros asort [n objs] W m t (o & E & K & Wt & Ww) M D N. cbn [h_objs] in E. subst objs.
  destruct o as [i k w ob og d wa b ns]. cbn [o_kind o_watch o_world] in *. subst k w wa.
  unfold apply_motion. rewrite M. cbn -[mmul minv rltb vnorm mapply].
  assert (F : rltb (vnorm (mapply (mmul t W) obj_direction)) dir_tolerance = false) by (apply rltb_false; lra). rewrite F.
  destruct (minv (mmul t W)) as [i0|] eqn:I.
  2: { apply minv_none in I. contradiction. }
  cbn -[mmul]. eexists. split; [reflexivity|]. eexists. split; [reflexivity|]. repeat split.
Qed.
Definition rz90 : mat := M4 (V4 0 (-1) 0 0) (V4 1 0 0 0) (V4 0 0 1 0) (V4 0 0 0 1).
Lemma rz90_matrix : motion_matrix (RotZ 90 Deg) = Some rz90.
Proof. destruct rot_quarter as (_ & _ & E). exact E. Qed.
Definition twice : mat := M4 (V4 2 0 0 0) (V4 0 2 0 0) (V4 0 0 2 0) (V4 0 0 0 1).
Lemma twice_matrix : motion_matrix (op_scale_all 2) = Some twice.
Proof.
  unfold op_scale_all, motion_matrix. assert (F : rltb 2 0 = false) by (apply rltb_false; lra). rewrite F. reflexivity.
Qed.
Lemma norm_z : forall k, 0 <= k -> vnorm (V4 0 0 k 0) = k.
Proof.
  intros k K. unfold vnorm, vdot; cbn [vx vy vz vw]. replace (_ + _) with (k * k) by ring. apply sqrt_square; auto.
Qed.
Lemma start_alone : forall asort, exists h, run_prog asort [CPlain] empty_heap = Ok h /\ alone h mid.
Proof. intro asort. eexists. split; [reflexivity|]. eexists. split; [reflexivity|]. repeat split. Qed.
Ltac mats := unfold mmul, mtrans, mapply, vdot, rz90, twice, mid; cbn [row0 row1 row2 row3 vx vy vz vw].

Definition scaled_program : list call := [CPlain; CMotion 0%nat (RotZ 90 Deg); CMotion 0%nat (op_scale_all 2)].
Lemma scaled_wrong : forall asort, exists h o, run_prog asort scaled_program empty_heap = Ok h /\ get h 0%nat = Some o /\
  get_quaternion o = Q 0 0 (3 / 5) (4 / 5) /\
  to_world_coordinates o (vector 1 0 0) = vector 0 2 0 /\
  turned_by (get_quaternion o) (vector 1 0 0) = vector (7 / 25) (24 / 25) 0.
Proof.
  intro asort. destruct (start_alone asort) as (h0 & E0 & A0).
  assert (W1 : mmul rz90 mid = rz90) by (mats; apply mat_eq; cbn [row0 row1 row2 row3]; apply v4_eq; cbn [vx vy vz vw]; ring).
  destruct (alone_moves asort h0 mid (RotZ 90 Deg) rz90 A0 rz90_matrix) as (h1 & E1 & A1); rewrite W1 in *.
  { replace (mapply rz90 obj_direction) with (V4 0 0 1 0) by (unfold obj_direction, vector; mats; apply v4_eq; cbn [vx vy vz vw]; ring).
    rewrite norm_z by lra. unfold dir_tolerance. lra. }
  { unfold mdet, rz90; cbn [row0 row1 row2 row3 vx vy vz vw]. lra. }
  set (W := M4 (V4 0 (-2) 0 0) (V4 2 0 0 0) (V4 0 0 2 0) (V4 0 0 0 1)).
  assert (W2 : mmul twice rz90 = W) by (unfold W; mats; apply mat_eq; cbn [row0 row1 row2 row3]; apply v4_eq; cbn [vx vy vz vw]; ring).
  destruct (alone_moves asort h1 rz90 (op_scale_all 2) twice A1 twice_matrix) as (h2 & E2 & A2); rewrite W2 in *.
  { replace (mapply W obj_direction) with (V4 0 0 2 0) by (unfold W, obj_direction, vector; mats; apply v4_eq; cbn [vx vy vz vw]; ring).
    rewrite norm_z by lra. unfold dir_tolerance. lra. }
  { unfold mdet, W; cbn [row0 row1 row2 row3 vx vy vz vw]. lra. }
  destruct (alone_get h2 W A2) as (o & G & Wo). exists h2, o.
  assert (Qo : get_quaternion o = Q 0 0 (3 / 5) (4 / 5)).
  { unfold get_quaternion. unfold get_world_transform in Wo. rewrite Wo. unfold from_matrix, raw_quat, mat_at, vec_at, W.
    cbn [row0 row1 row2 row3 vx vy vz vw].
    assert (F : argmax4 0 0 2 (0 + 0 + 2) = 2%nat).
    { unfold argmax4. assert (B1 : rltb 0 0 = false) by (apply rltb_false; lra). assert (B2 : rltb 0 2 = true) by (apply rltb_true; lra).
      rewrite B1. cbn [fst snd]. rewrite B2. assert (B3 : rltb 2 (0 + 0 + 2) = false) by (apply rltb_false; lra). rewrite B3. reflexivity. }
    rewrite F. unfold qnormalize; cbn [qx qy qz qw].
    replace (sqrt _) with 5. 2: { symmetry. replace (_ + _) with (5 * 5) by ring. apply sqrt_square. lra. }
    destruct (Req_EM_T 5 0); [lra|]. f_equal; field. }
  split; [|split; [exact G|split; [exact Qo|split]]].
  - change scaled_program with ([CPlain] ++ [CMotion 0%nat (RotZ 90 Deg); CMotion 0%nat (op_scale_all 2)]).
    assert (X : forall cs h h', run_prog asort cs h = Ok h' -> forall ds, run_prog asort (cs ++ ds) h = run_prog asort ds h').
    { clear. induction cs as [|c cs IH]; intros h h' E ds; cbn [app run_prog] in *; [injection E as ->; auto|].
      destruct (run_call asort c h); try discriminate. cbn [bind] in *. apply IH; auto. }
    rewrite (X _ _ _ E0). cbn [run_prog run_call bind]. rewrite E1. cbn [bind]. rewrite E2. reflexivity.
  - unfold to_world_coordinates. unfold get_world_transform in Wo. rewrite Wo. unfold W, vector. mats. apply v4_eq; cbn [vx vy vz vw]; ring.
  - rewrite Qo. unfold turned_by, qmul, qconj, vector; cbn [qx qy qz qw vx vy vz vw]. apply v4_eq; cbn [vx vy vz vw]; field.
Qed.

(** without a rotation, scaling does not disturb the answer *)
Lemma only_scaled : forall o x y z a b c, 0 < x -> 0 < y -> 0 < z ->
  get_world_transform o = M4 (V4 x 0 0 a) (V4 0 y 0 b) (V4 0 0 z c) (V4 0 0 0 1) -> get_quaternion o = qone.
Proof.
  intros o x y z a b c X Y Z W. unfold get_quaternion. unfold get_world_transform in W. rewrite W.
  unfold from_matrix, raw_quat, mat_at, vec_at. cbn [row0 row1 row2 row3 vx vy vz vw].
  pose proof (argmax4_spec x y z (x + y + z)) as S. cbn zeta in S. destruct S as (L & S1 & S2 & S3 & S4).
  destruct (argmax4 x y z (x + y + z)) as [|[|[|[|n]]]]; cbn [nth] in *; try lra; try lia.
  unfold qnormalize; cbn [qx qy qz qw].
  replace (sqrt _) with (1 + (x + y + z)). 2: { symmetry. replace (_ + _) with ((1 + (x + y + z)) * (1 + (x + y + z))) by ring. apply sqrt_square. lra. }
  destruct (Req_EM_T (1 + (x + y + z)) 0); [lra|]. unfold qone. f_equal; field; lra.
Qed.

(** a group with a member listed twice, turned about y; the member moved on its own; the
    group turned about x: the member is turned twice each time *)
Definition turned_calls : list call := [CPlain; CSurface (PSphere 1) Mirror; CGroup [0; 1; 1]%nat; CMotion 2%nat (RotY 30 Deg); CMotion 1%nat (Move 1 2 3)].
Lemma turned_calls_fine : Forall never_scales turned_calls /\ Forall no_set turned_calls /\ Forall affine_call turned_calls.
Proof. unfold turned_calls. repeat split; repeat constructor. Qed.
Lemma prog_app : forall asort cs h h', run_prog asort cs h = Ok h' -> forall ds, run_prog asort (cs ++ ds) h = run_prog asort ds h'.
Proof.
  intros asort cs. induction cs as [|c cs IH]; intros h h' E ds; cbn [app run_prog] in *; [injection E as ->; auto|].
  destruct (run_call asort c h); try discriminate. cbn [bind] in *. apply IH; auto.
Qed.
Lemma turned_ok : forall asort, exists h h' o o', run_prog asort turned_calls empty_heap = Ok h /\ Forall never_scales turned_calls /\
  apply_motion asort 2%nat (RotX 40 Deg) h = Ok h' /\ get h 1%nat = Some o /\ get h' 1%nat = Some o' /\ times h 2%nat 1%nat = 2%nat.
Proof.
  intro asort. set (cs0 := [CPlain; CSurface (PSphere 1) Mirror; CGroup [0; 1; 1]%nat]).
  assert (R0 : exists h0, run_prog asort cs0 empty_heap = Ok h0 /\ (exists o, get h0 2%nat = Some o) /\ (exists o, get h0 1%nat = Some o) /\ times h0 2%nat 1%nat = 2%nat).
  { unfold cs0. eexists. split; [cbn -[bounding_box]; reflexivity|]. split; [eexists; reflexivity|]. split; [eexists; reflexivity|]. reflexivity. }
  destruct R0 as (h0 & R0 & (o2 & G2) & (o1 & G1) & T0).
  assert (S : forall cs h l m, run_prog asort cs empty_heap = Ok h -> Forall no_set cs -> Forall affine_call cs -> rigid m -> (exists t, motion_matrix m = Some t) ->
    (exists o, get h 2%nat = Some o) -> (exists o, get h 1%nat = Some o) -> times h 2%nat 1%nat = 2%nat -> l = 1%nat \/ l = 2%nat ->
    exists h', apply_motion asort l m h = Ok h' /\ run_prog asort (cs ++ [CMotion l m]) empty_heap = Ok h' /\
      (exists o, get h' 2%nat = Some o) /\ (exists o, get h' 1%nat = Some o) /\ times h' 2%nat 1%nat = 2%nat).
  { intros cs h l m Rn N A Rg (t & M) (a & Ga) (b & Gb) T L.
    assert (Go : exists o, get h l = Some o) by (destruct L as [-> | ->]; eauto). destruct Go as (o & Go).
    destruct (rigid_succeeds asort cs h l o m t Rn N A Go Rg M) as (h' & E). exists h'. split; [exact E|].
    split; [rewrite (prog_app _ _ _ _ Rn); cbn [run_prog run_call]; rewrite E; reflexivity|].
    unfold apply_motion in E. rewrite M in E. pose proof (transform_sks asort (depth h) l t h) as K. rewrite E in K. specialize (K h').
    assert (K' : sks h h') by (apply K; reflexivity). clear K.
    destruct (proj2 (proj2 K') _ _ Ga) as (a' & Ga' & _). destruct (proj2 (proj2 K') _ _ Gb) as (b' & Gb' & _).
    split; [eauto|]. split; [eauto|]. unfold times in *. rewrite (parts_sks h h' 2%nat K'). exact T. }
  assert (Fn : Forall no_set cs0) by (unfold cs0; repeat constructor). assert (Fa : Forall affine_call cs0) by (unfold cs0; repeat constructor).
  destruct (S cs0 h0 2%nat (RotY 30 Deg) R0 Fn Fa Logic.I (ex_intro _ _ eq_refl) (ex_intro _ _ G2) (ex_intro _ _ G1) T0 (or_intror eq_refl))
    as (h1 & _ & R1 & X2 & X1 & T1).
  assert (Fn1 : Forall no_set (cs0 ++ [CMotion 2%nat (RotY 30 Deg)])) by (unfold cs0; repeat constructor).
  assert (Fa1 : Forall affine_call (cs0 ++ [CMotion 2%nat (RotY 30 Deg)])) by (unfold cs0; repeat constructor).
  destruct (S _ h1 1%nat (Move 1 2 3) R1 Fn1 Fa1 Logic.I (ex_intro _ _ eq_refl) X2 X1 T1 (or_introl eq_refl)) as (h2 & _ & R2 & Y2 & Y1 & T2).
  destruct turned_calls_fine as (Fs & Fn2 & Fa2).
  destruct (S _ h2 2%nat (RotX 40 Deg) R2 Fn2 Fa2 Logic.I (ex_intro _ _ eq_refl) Y2 Y1 T2 (or_intror eq_refl)) as (h3 & E3 & _ & _ & Z1 & _).
  destruct Y1 as (o & Go). destruct Z1 as (o' & Go'). exists h2, h3, o, o'. split; [exact R2|]. auto.
Qed.
