(** * QuatProps: the quaternions of world objects after any history *)
From Coq Require Import Reals List Bool Lra Lia.
Import ListNotations.
From Verif Require Import XR XRFacts Arr Lin LinFacts Prim Csg Surf World SpecWorld Quat SpecQuat QuatFacts
  WorldFacts WorldFacts2 WorldFacts3 WorldFacts4 WorldFacts5 WorldExamples WorldProps.
Open Scope R_scope.

Definition turning (m : mat) : Prop := affine m /\ exists q, unit_quat q /\ qmat_like q m.
Definition all_turning (h : heap) : Prop := forall x o, get h x = Some o -> turning (o_world o).
Lemma turning_mid : turning mid.
Proof. split; [apply affine_mid|]. exists qone. split; [apply qone_unit|apply qmat_mid]. Qed.
Lemma turning_mmul : forall a b, turning a -> turning b -> turning (mmul a b).
Proof.
  intros a b (A & p & P & Hp) (B & q & U & Hq). split; [apply affine_mmul; auto|]. exists (qmul p q).
  split; [apply qmul_unit; auto|apply qmat_mmul; auto].
Qed.
Lemma turning_power : forall n m, turning m -> turning (SpecWorld.power n m).
Proof. induction n; intros m T; [apply turning_mid|cbn [SpecWorld.power]; apply turning_mmul; auto]. Qed.
Lemma call_turning : forall l m t, never_scales (CMotion l m) -> motion_matrix m = Some t -> turning t.
Proof.
  intros l m t N M. destruct m as [x y z|x y z|a u|a u|a u|k]; [|destruct N| | | |].
  1: assert (Rg : rigid (Move x y z)) by exact Logic.I.
  2: assert (Rg : rigid (RotX a u)) by exact Logic.I.
  3: assert (Rg : rigid (RotY a u)) by exact Logic.I.
  4: assert (Rg : rigid (RotZ a u)) by exact Logic.I.
  1-4: destruct (motion_qmat _ _ Rg M) as (U & H); split; [apply (rigid_iso _ _ Rg M)|eauto].
  injection M as <-. split; [apply N|apply rotates_quat; exact N].
Qed.
Lemma run_call_turning : forall asort c h h', never_scales c -> all_turning h -> run_call asort c h = Ok h' -> all_turning h'.
Proof.
  assert (AL : forall k h, all_turning h -> all_turning (alloc k h)).
  { intros k h A x o G. destruct (get_alloc _ _ _ _ G) as [G1|(-> & ->)]; [eauto|apply turning_mid]. }
  assert (EX : forall h h', exts h h' -> all_turning h -> all_turning h').
  { intros h h' E A x o' G'. destruct (hrel_get_back _ _ _ _ _ E G') as (o & G & (_ & _ & W & _)). rewrite W. eauto. }
  assert (UP : forall h l f, (forall o, o_world (f o) = o_world o) -> all_turning h -> all_turning (upd h l f)).
  { intros h l f Hf A x o G. rewrite get_upd in G. destruct (Nat.eqb x l); [|eauto]. destruct (get h x) as [o1|] eqn:G1; [|discriminate].
    injection G as <-. rewrite Hf. eauto. }
  intros asort c h h' N A H. destruct c as [|p m|ms|g ms|op a b|l o|l|l]; cbn [run_call] in H.
  - injection H as <-. auto.
  - unfold new_surface in H. destruct (prim_init p); [|discriminate]. injection H as <-. apply UP; [auto|]. apply UP; auto.
  - unfold new_group in H. destruct (valid_locs h ms); [|discriminate]. injection H as <-. auto.
  - unfold group_set in H. destruct (get h g) as [o|]; [|discriminate]. destruct (o_kind o); try discriminate.
    destruct (valid_locs h ms); [|discriminate]. injection H as <-. apply UP; auto.
  - destruct (new_csg_exts asort op a b h h') as [->|X]; [rewrite H; auto|auto|]. apply (EX _ _ X). unfold csg_start. apply UP; auto.
  - unfold apply_motion in H. destruct (motion_matrix o) as [t|] eqn:M; [|discriminate]. apply transform_effect in H.
    intros x o' G'. destruct (hrel_get_back _ _ _ _ _ H G') as (o1 & G1 & [_ W]). rewrite W. apply turning_mmul; [|eauto].
    apply turning_power. eapply call_turning; eauto.
  - apply (EX h); auto. apply (set_normals_exts (depth h) (-1) l). rewrite H; auto.
  - apply (EX h); auto. apply (set_normals_exts (depth h) 1 l). rewrite H; auto.
Qed.
Lemma run_prog_turning : forall asort cs h h', Forall never_scales cs -> all_turning h -> run_prog asort cs h = Ok h' -> all_turning h'.
Proof.
  intros asort cs. induction cs as [|c cs IH]; intros h h' F A H.
  - injection H as <-. auto.
  - inversion F; subst. simpl in H. destruct (run_call asort c h) as [h1|e h1|] eqn:E; try discriminate. apply (IH h1); auto.
    eapply run_call_turning; eauto.
Qed.
Lemma empty_turning : all_turning empty_heap.
Proof. intros [|x] o G; discriminate. Qed.

Lemma turning_quat : forall m, turning m -> unit_quat (from_matrix m) /\ qmat_like (from_matrix m) m /\ leading_positive (from_matrix m).
Proof.
  intros m (A & q & U & H). destruct (found q m U H) as (S & L). split; [eapply same_unit; eauto|]. split; [eapply same_qmat; eauto|auto].
Qed.
Lemma rotation_quat : forall o, rotates (get_world_transform o) ->
  unit_quat (get_quaternion o) /\ leading_positive (get_quaternion o) /\
  (forall a b c, to_world_coordinates o (vector a b c) = turned_by (get_quaternion o) (vector a b c)) /\
  forall q, unit_quat q -> (forall a b c, to_world_coordinates o (vector a b c) = turned_by q (vector a b c)) ->
    same_rotation (get_quaternion o) q.
Proof.
  intros o Rt. assert (T : turning (o_world o)) by (split; [apply Rt|apply rotates_quat; exact Rt]).
  destruct (turning_quat _ T) as (U & H & L). destruct T as (A & _). unfold get_quaternion. split; [auto|]. split; [auto|].
  split; [intros; apply qmat_turns; auto|]. intros q Uq Hq. apply (qmat_unique _ _ (o_world o)); auto.
  pose proof (Hq 1 0 0) as T1. pose proof (Hq 0 1 0) as T2. pose proof (Hq 0 0 1) as T3. clear Hq H L U Rt.
  unfold to_world_coordinates in *. destruct q as [x y z w]. destruct (o_world o) as [[a0 a1 a2 a3] [b0 b1 b2 b3] [c0 c1 c2 c3] d].
  unfold unit_quat in Uq; cbn [qx qy qz qw] in Uq.
  unfold turned_by, qmul, qconj, mapply, vdot, vector in T1, T2, T3; cbn [qx qy qz qw row0 row1 row2 row3 vx vy vz vw] in T1, T2, T3.
  injection T1 as E1 E2 E3 _. injection T2 as F1 F2 F3 _. injection T3 as G1 G2 G3 _.
  unfold qmat_like; cbn [qx qy qz qw row0 row1 row2 row3 vx vy vz vw].
  repeat split; lra.
Qed.
(** matrices with a quaternion are rotations *)
Lemma turned_norm : forall q v, unit_quat q -> vw v = 0 -> vdot (turned_by q v) (turned_by q v) = vdot v v.
Proof.
  intros [x y z w] [a b c d] U W. cbn [vw] in W. subst d. unfold unit_quat in U; cbn [qx qy qz qw] in U.
  unfold turned_by, qmul, qconj, vdot; cbn [qx qy qz qw vx vy vz vw].
  transitivity ((x * x + y * y + z * z + w * w) * (x * x + y * y + z * z + w * w) * (a * a + b * b + c * c)); [ring|rewrite U; ring].
Qed.
Lemma turning_rotates : forall m, turning m -> rotates m.
Proof.
  intros m (A & q & U & H). split; [auto|]. split.
  - intros [a b c d] W. cbn [vw] in W. subst d. change (V4 a b c 0) with (vector a b c). rewrite (qmat_turns q m) by auto. apply turned_norm; auto.
  - destruct q as [x y z w]. destruct m as [[a0 a1 a2 a3] [b0 b1 b2 b3] [c0 c1 c2 c3] d]. unfold affine in A; cbn [row3] in A. subst d.
    unfold qmat_like in H; cbn [qx qy qz qw row0 row1 row2 row3 vx vy vz vw] in H.
    destruct H as (-> & -> & -> & -> & -> & -> & -> & -> & ->). unfold unit_quat in U; cbn [qx qy qz qw] in U.
    unfold mdet; cbn [row0 row1 row2 row3 vx vy vz vw]. assert (E : w * w = 1 - x * x - y * y - z * z) by lra.
    ring_simplify. replace (w ^ 2) with (w * w) by ring. rewrite ?E. ring.
Qed.
Lemma history_rotates : forall asort cs h x o, run_prog asort cs empty_heap = Ok h -> Forall never_scales cs -> get h x = Some o ->
  rotates (get_world_transform o).
Proof. intros asort cs h x o Rn N G. apply turning_rotates. apply (run_prog_turning _ _ _ _ N empty_turning Rn x o G). Qed.

Lemma orientation_quat : forall asort cs h x o, run_prog asort cs empty_heap = Ok h -> rotates (get_world_transform o) -> get h x = Some o ->
  get_orientation o = turned_by (get_quaternion o) (vector 0 0 1).
Proof.
  intros asort cs h x o Rn Rt G. destruct (rotation_quat o Rt) as (U & _ & T & _). rewrite <- T.
  destruct (consistent_history _ _ _ _ _ Rn G) as (_ & _ & _ & _ & N & k & K & E). rewrite E in N |- *.
  assert (N1 : vdot (to_world_coordinates o (vector 0 0 1)) (to_world_coordinates o (vector 0 0 1)) = 1).
  { unfold to_world_coordinates. destruct Rt as (_ & I & _). unfold get_world_transform in I. rewrite I by reflexivity.
    unfold vdot, vector; cbn [vx vy vz vw]. ring. }
  set (v := to_world_coordinates o (vector 0 0 1)) in *. unfold vnorm in N.
  replace (vdot (vscale k v) (vscale k v)) with (k * k * vdot v v) in N by (unfold vdot, vscale; cbn [vx vy vz vw]; ring).
  rewrite N1, Rmult_1_r, sqrt_square in N by lra. rewrite N. clearbody v. unfold vscale. destruct v as [v1 v2 v3 v4]; cbn [vx vy vz vw]. f_equal; ring.
Qed.

Lemma moved_quat : forall asort cs h l m h' x o o', run_prog asort cs empty_heap = Ok h -> rotates (get_world_transform o) ->
  rigid m -> apply_motion asort l m h = Ok h' -> get h x = Some o -> get h' x = Some o' ->
  same_rotation (get_quaternion o') (qmul (qpower (times h l x) (motion_quat m)) (get_quaternion o)).
Proof.
  intros asort cs h l m h' x o o' Rn Rt Rg A G G'. pose proof A as A0. unfold apply_motion in A0.
  destruct (motion_matrix m) as [t|] eqn:M; [|discriminate]. clear A0.
  destruct (any_moved _ _ _ _ _ _ _ Rn M A) as (P & _ & _). destruct (P _ _ G) as (o1 & G1 & W). rewrite G' in G1. injection G1 as <-.
  unfold get_world_transform in *. unfold get_quaternion. rewrite W.
  assert (T : turning (o_world o)) by (split; [apply Rt|apply rotates_quat; exact Rt]).
  destruct (turning_quat _ T) as (U & H & _). destruct T as (Aff & _).
  destruct (motion_qmat m t Rg M) as (Um & Hm). destruct (rigid_iso _ _ Rg M) as (At & _).
  apply found.
  - apply qmul_unit; [apply qpower_unit|]; auto.
  - apply qmat_mmul; auto; [apply qpower_unit; auto|apply power_affine; auto|apply qmat_power; auto].
Qed.
Lemma moved_rotates : forall asort cs h l m h' o o' x, run_prog asort cs empty_heap = Ok h -> rotates (get_world_transform o) ->
  rigid m -> apply_motion asort l m h = Ok h' -> get h x = Some o -> get h' x = Some o' -> rotates (get_world_transform o').
Proof.
  intros asort cs h l m h' o o' x Rn Rt Rg A G G'. pose proof A as A0. unfold apply_motion in A0.
  destruct (motion_matrix m) as [t|] eqn:M; [|discriminate]. clear A0.
  destruct (any_moved _ _ _ _ _ _ _ Rn M A) as (P & _ & _). destruct (P _ _ G) as (o1 & G1 & W). rewrite G' in G1. injection G1 as <-.
  rewrite W. apply turning_rotates, turning_mmul.
  - apply turning_power. destruct (motion_qmat m t Rg M) as (Um & Hm). split; [apply (rigid_iso _ _ Rg M)|eauto].
  - split; [apply Rt|apply rotates_quat; exact Rt].
Qed.
Lemma qmul_qone_r : forall q, qmul q qone = q.
Proof. intros [x y z w]. unfold qmul, qone; cbn [qx qy qz qw]. f_equal; ring. Qed.
Lemma qmul_qone_l : forall q, qmul qone q = q.
Proof. intros [x y z w]. unfold qmul, qone; cbn [qx qy qz qw]. f_equal; ring. Qed.
Lemma same_refl : forall q, same_rotation q q. Proof. left; auto. Qed.
Lemma history_quat : forall asort cs h l o ms h' o', run_prog asort cs empty_heap = Ok h -> rotates (get_world_transform o) -> get h l = Some o ->
  Forall rigid ms -> run_prog asort (map (CMotion l) ms) h = Ok h' -> get h' l = Some o' ->
  same_rotation (get_quaternion o') (qmul (motions_quat ms) (get_quaternion o)).
Proof.
  intros asort cs h l o ms. revert cs h o. induction ms as [|m ms IH]; intros cs h o h' o' Rn Rt G F E G'.
  - injection E as <-. rewrite G in G'. injection G' as <-. cbn [motions_quat]. rewrite qmul_qone_l. apply same_refl.
  - inversion F as [|? ? Rg F']; subst. cbn [map run_prog run_call] in E. destruct (apply_motion asort l m h) as [h1|e h1|] eqn:A; try discriminate.
    cbn [bind] in E.
    assert (M : exists t, motion_matrix m = Some t) by (unfold apply_motion in A; destruct (motion_matrix m); [eauto|discriminate]).
    destruct M as (t & M). destruct (any_moved _ _ _ _ _ _ _ Rn M A) as (P & _ & T). destruct (P _ _ G) as (o1 & G1 & _).
    assert (Rn1 : run_prog asort (cs ++ [CMotion l m]) empty_heap = Ok h1).
    { clear -Rn A. revert Rn. generalize empty_heap. induction cs as [|c cs IH]; intros h0 Rn; cbn [app run_prog] in *.
      - injection Rn as ->. cbn [run_call]. rewrite A. reflexivity.
      - destruct (run_call asort c h0); try discriminate. cbn [bind] in *. auto. }
    pose proof (IH _ _ _ _ _ Rn1 (moved_rotates _ _ _ _ _ _ _ _ _ Rn Rt Rg A G G1) G1 F' E G') as H.
    pose proof (moved_quat _ _ _ _ _ _ _ _ _ Rn Rt Rg A G G1) as S. rewrite T in S. cbn [qpower] in S. rewrite qmul_qone_r in S.
    cbn [motions_quat]. rewrite qmul_assoc. eapply same_trans; [exact H|]. apply same_mul; [apply same_refl|exact S].
Qed.
