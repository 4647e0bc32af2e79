(** * QuatScaledHist: evenly scaled objects after any history *)
From Coq Require Import Reals List Bool Lra Lia.
Import ListNotations.
From Verif Require Import XR XRFacts Arr Lin LinFacts Prim Csg Surf World SpecWorld Quat SpecQuat QuatFacts
  WorldFacts WorldFacts2 WorldFacts3 WorldFacts4 WorldFacts5 WorldProps QuatProps SpecQuatScaled QuatScaled.
Open Scope R_scope.

Definition stretching (m : mat) : Prop := exists q s, unit_quat q /\ 0 < s /\ forall a b c, mapply m (vector a b c) = vscale s (turned_by q (vector a b c)).
Definition all_stretching (h : heap) : Prop := forall x o, get h x = Some o -> stretching (o_world o).
Lemma vscale_one : forall v, vscale 1 v = v. Proof. intros [a b c d]. unfold vscale; cbn [vx vy vz vw]. f_equal; ring. Qed.
Lemma turning_stretching : forall m, turning m -> stretching m.
Proof. intros m (A & q & U & H). exists q, 1. split; auto. split; [lra|]. intros. rewrite vscale_one. apply qmat_turns; auto. Qed.
Lemma turned_vector : forall q a b c, exists x y z, turned_by q (vector a b c) = vector x y z.
Proof. intros q a b c. unfold turned_by, vector. cbn [vw]. eauto. Qed.
Lemma stretching_mmul : forall a b, stretching a -> stretching b -> stretching (mmul a b).
Proof.
  intros a b (p & s & P & S & Hp) (q & t & U & T & Hq). exists (qmul p q), (s * t). split; [apply qmul_unit; auto|]. split; [apply Rmult_lt_0_compat; auto|].
  intros x y z. rewrite mapply_mmul, Hq, mapply_scale. destruct (turned_vector q x y z) as (x' & y' & z' & E). rewrite E, Hp, <- E, turned_twice.
  destruct (turned_by (qmul p q) (vector x y z)) as [? ? ? ?]. unfold vscale; f_equal; cbn; ring.
Qed.
Lemma stretching_power : forall n m, stretching m -> stretching (SpecWorld.power n m).
Proof. induction n; intros m T; [apply turning_stretching, turning_mid|cbn [SpecWorld.power]; apply stretching_mmul; auto]. Qed.
Lemma call_stretching : forall l m t, scales_evenly (CMotion l m) -> motion_matrix m = Some t -> stretching t.
Proof.
  intros l m t N M. destruct m as [x y z|x y z|a u|a u|a u|k]; [| |apply turning_stretching; eapply (call_turning l); [|exact M]; exact N ..].
  - apply turning_stretching. apply (call_turning l _ _) with (2 := M). exact N.
  - destruct N as (X & -> & ->). cbn [motion_matrix] in M. assert (F : rltb x 0 = false) by (apply rltb_false; lra). rewrite F in M. injection M as <-.
    exists qone, x. split; [apply qone_unit|]. split; auto. intros a b c. unfold turned_by, qmul, qconj, qone, mapply, vdot, vector, vscale; cbn [qx qy qz qw row0 row1 row2 row3 vx vy vz vw]. f_equal; ring.
Qed.
Lemma run_call_stretching : forall asort c h h', scales_evenly c -> all_stretching h -> run_call asort c h = Ok h' -> all_stretching h'.
Proof.
  assert (AL : forall k h, all_stretching h -> all_stretching (alloc k h)).
  { intros k h A x o G. destruct (get_alloc _ _ _ _ G) as [G1|(-> & ->)]; [eauto|apply turning_stretching, turning_mid]. }
  assert (EX : forall h h', exts h h' -> all_stretching h -> all_stretching h').
  { intros h h' E A x o' G'. destruct (hrel_get_back _ _ _ _ _ E G') as (o & G & (_ & _ & W & _)). rewrite W. eauto. }
  assert (UP : forall h l f, (forall o, o_world (f o) = o_world o) -> all_stretching h -> all_stretching (upd h l f)).
  { intros h l f Hf A x o G. rewrite get_upd in G. destruct (Nat.eqb x l); [|eauto]. destruct (get h x) as [o1|] eqn:G1; [|discriminate].
    injection G as <-. rewrite Hf. eauto. }
  intros asort c h h' N A H. destruct c as [|p m|ms|g ms|op a b|l o|l|l]; cbn [run_call] in H.
  - injection H as <-. auto.
  - unfold new_surface in H. destruct (prim_init p); [|discriminate]. injection H as <-. apply UP; [auto|]. apply UP; auto.
  - unfold new_group in H. destruct (valid_locs h ms); [|discriminate]. injection H as <-. auto.
  - unfold group_set in H. destruct (get h g) as [o|]; [|discriminate]. destruct (o_kind o); try discriminate.
    destruct (valid_locs h ms); [|discriminate]. injection H as <-. apply UP; auto.
  - destruct (new_csg_exts asort op a b h h') as [->|X]; [rewrite H; auto|auto|]. apply (EX _ _ X). unfold csg_start. apply UP; auto.
  - unfold apply_motion in H. destruct (motion_matrix o) as [t|] eqn:M; [|discriminate]. apply transform_effect in H.
    intros x o' G'. destruct (hrel_get_back _ _ _ _ _ H G') as (o1 & G1 & [_ W]). rewrite W. apply stretching_mmul; [|eauto].
    apply stretching_power. eapply call_stretching; eauto.
  - apply (EX h); auto. apply (set_normals_exts (depth h) (-1) l). rewrite H; auto.
  - apply (EX h); auto. apply (set_normals_exts (depth h) 1 l). rewrite H; auto.
Qed.
Lemma run_prog_stretching : forall asort cs h h', Forall scales_evenly cs -> all_stretching h -> run_prog asort cs h = Ok h' -> all_stretching h'.
Proof.
  intros asort cs. induction cs as [|c cs IH]; intros h h' F A H.
  - injection H as <-. auto.
  - inversion F; subst. simpl in H. destruct (run_call asort c h) as [h1|e h1|] eqn:E; try discriminate. apply (IH h1); auto.
    eapply run_call_stretching; eauto.
Qed.
Theorem history_stretches : forall asort cs h x o, run_prog asort cs empty_heap = Ok h -> Forall scales_evenly cs -> get h x = Some o ->
  exists q s, unit_quat q /\ 0 < s /\ turns_and_stretches q s o.
Proof.
  intros asort cs h x o H F G. assert (E : all_stretching empty_heap) by (intros [|y] o' G'; discriminate).
  exact (run_prog_stretching asort cs _ _ F E H x o G).
Qed.
