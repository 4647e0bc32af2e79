(** * MotionFacts5: moving every component of a tracer *)
From Coq Require Import Reals List Bool ZArith Lra Lia Psatz.
Import ListNotations.
From Verif Require Import XR XRFacts Arr Lin LinFacts Prim Csg CsgProps Surf SpecGeom SpecTree World SpecWorld WorldFacts WorldFacts2 WorldFacts3 WorldFacts4 WorldFacts5 WorldExamples
  Tracer SpecTrace TraceFacts8 TraceProps BoxFacts SpecOptics SpecMotion MotionFacts MotionFacts2 MotionFacts3 MotionFacts4.
Open Scope R_scope.

Lemma tree_closed : forall h l ps, tree h l ps -> forall x c, In x ps -> parent h x c -> In c ps.
Proof.
  intros h l ps T. induction T as [l o p m G K|l o op a b pa pb G K Ta IHa Tb IHb]; intros x c I P.
  - destruct I as [<-|[]]. destruct P as (oy & op & a & b & G' & K' & _). congruence.
  - assert (HA : In a pa) by (inversion Ta; left; auto). assert (HB : In b pb) by (inversion Tb; left; auto).
    destruct I as [<-|I].
    + destruct P as (oy & op' & a' & b' & G' & K' & E). rewrite G in G'. injection G' as <-. rewrite K in K'. injection K' as <- <- <-.
      right. apply in_app_iff. destruct E as [->| ->]; auto.
    + right. apply in_app_iff in I. apply in_app_iff. destruct I as [I|I]; eauto.
Qed.

Section All.
  Variables (asort : list xr -> list nat) (mo : motion) (m : mat).
  Hypothesis M : motion_matrix mo = Some m.

  Lemma move_all : forall ls h h', wf h -> all_good h ->
    (forall l, In l ls -> exists o, get h l = Some o /\ is_shape (o_kind o)) -> NoDup (flat_map (parts h) ls) ->
    run_prog asort (map (fun l => CMotion l mo) ls) h = Ok h' ->
    sks h h' /\ all_good h' /\
    (forall x o, In x (flat_map (parts h) ls) -> get h x = Some o -> exists o', get h' x = Some o' /\ moved_obj m o o') /\
    (forall x o, ~ In x (flat_map (parts h) ls) -> get h x = Some o ->
       exists o', get h' x = Some o' /\ o_world o' = o_world o) /\
    (forall x, ~ In x (flat_map (parts h) ls) -> (forall c, In c (flat_map (parts h) ls) -> ~ parent h x c) -> box_of h' x = box_of h x) /\
    ((forall l, In l ls -> right_simple h l) -> forall x, In x (flat_map (parts h) ls) -> box_current asort h' x).
  Proof.
    induction ls as [|l ls IH]; intros h h' W A SH ND H; cbn [map run_prog flat_map] in *.
    - injection H as <-. split; [apply sks_refl|]. split; [auto|]. split; [intros x o []|]. split; [intros; eauto|]. split; [auto|intros _ x []].
    - cbn [run_call] in H. destruct (apply_motion asort l mo h) as [h1|e h1|] eqn:E; try discriminate. cbn [bind] in H.
      pose proof E as E0. unfold apply_motion in E0. rewrite M in E0.
      assert (S1 : sks h h1) by (apply (transform_sks asort (depth h) l m); rewrite E0; auto).
      pose proof (wf_kws _ _ (sks_kws _ _ S1) W) as W1. pose proof (transform_good _ _ _ _ _ _ A E0) as A1.
      destruct (SH l (or_introl eq_refl)) as (ol & Gl & Kl).
      pose proof (wf_tree h W (depth h) l ol (get_depth _ _ _ Gl) Gl Kl) as T. change (parts_upto (depth h) h l) with (parts h l) in T.
      assert (PE : forall x, parts h1 x = parts h x) by (intro; apply parts_sks; auto).
      assert (FE : flat_map (parts h1) ls = flat_map (parts h) ls) by (clear - PE; induction ls as [|a ls IH]; cbn [flat_map]; rewrite ?PE, ?IH; auto).
      destruct (NoDup_app_inv _ _ _ ND) as (NDl & NDr & DJ0).
      assert (DJ : forall x, In x (parts h l) -> ~ In x (flat_map (parts h) ls)) by (intros x I J; exact (DJ0 x I J)).
      assert (SH1 : forall l', In l' ls -> exists o, get h1 l' = Some o /\ is_shape (o_kind o)).
      { intros l' I. destruct (SH l' (or_intror I)) as (o & G & K). destruct (proj2 (proj2 S1) _ _ G) as (o' & G' & (_ & K' & _)). exists o'. split; auto. rewrite K'. auto. }
      destruct (IH h1 h' W1 A1 SH1) as (S2 & A2 & MV & UN & BX & CU); [rewrite FE; auto|exact H|]. rewrite FE in MV, UN, BX, CU.
      assert (SS : sks h h') by (eapply sks_trans; eauto).
      split; [exact SS|]. split; [exact A2|]. split; [|split; [|split]].
      + intros x o I G. apply in_app_iff in I. destruct (transform_part _ _ _ _ _ _ _ E0 G) as (o1 & G1 & I1 & K1 & N1 & W1').
        destruct I as [I|I].
        * destruct (UN x o1 (DJ x I) G1) as (o2 & G2 & W2). destruct (proj2 (proj2 SS) _ _ G) as (o2' & G2' & (I2 & K2 & _ & N2)).
          rewrite G2 in G2'. injection G2' as <-. exists o2. split; auto. repeat split; auto.
          rewrite W2, W1', NoDup_times, power_1 by auto. reflexivity.
        * destruct (MV x o1 I G1) as (o2 & G2 & (I2 & K2 & N2 & W2)). exists o2. split; auto.
          rewrite times_zero in W1' by (intro J; apply (DJ x J I)). cbn [power] in W1'. rewrite mmul_mid_l in W1'.
          repeat split; congruence.
      + intros x o N G. destruct (transform_part _ _ _ _ _ _ _ E0 G) as (o1 & G1 & _ & _ & _ & W1').
        rewrite times_zero in W1' by (intro J; apply N; apply in_app_iff; auto). cbn [power] in W1'. rewrite mmul_mid_l in W1'.
        destruct (UN x o1) as (o2 & G2 & W2); [intro J; apply N; apply in_app_iff; auto|auto|]. exists o2. split; auto. congruence.
      + intros x N P. rewrite BX; [|intro J; apply N; apply in_app_iff; auto|].
        * apply (tree_transform_box h l (parts h l) T asort (depth h) m h h1 (sks_refl h) W E0); [intro J; apply N; apply in_app_iff; auto|].
          intros c I. apply P. apply in_app_iff; auto.
        * intros c I PC. apply (P c); [apply in_app_iff; auto|]. eapply parent_kws_back; [apply sks_kws, S1|exact PC].
      + intros RS x I. apply in_app_iff in I. destruct I as [I|I].
        * assert (C1 : box_current asort h1 x)
            by (apply (tree_transform_current h l (parts h l) T NDl (RS l (or_introl eq_refl)) asort (depth h) m h h1 (sks_refl h) W E0 x I)).
          assert (FR : forall y, In y (parts h l) -> box_of h' y = box_of h1 y).
          { intros y Iy. apply BX; [apply DJ; auto|]. intros c Ic PC. apply (DJ c); auto.
            apply (tree_closed h l (parts h l) T y c Iy). eapply parent_kws_back; [apply sks_kws, S1|exact PC]. }
          apply (box_of_current asort h1 h' x C1); [|apply sks_kws; auto].
          intros oy op a b Gy Ky.
          assert (PA : forall c, c = a \/ c = b -> In c (parts h l)).
          { intros c Ec. apply (tree_closed h l (parts h l) T x c I). eapply parent_kws_back; [apply sks_kws, S1|].
            exists oy, op, a, b. auto. }
          split; [apply FR; auto|]. split; [apply FR, PA; auto|]. right. apply FR, PA; auto.
        * apply CU; auto. intros l' Il y oy op a b Iy Gy Ky. rewrite PE in Iy.
          destruct (hrel_get_back _ _ _ _ _ S1 Gy) as (oy0 & Gy0 & (_ & Ky0 & _)). rewrite Ky in Ky0. symmetry in Ky0.
          destruct (RS l' (or_intror Il) y oy0 op a b Iy Gy0 Ky0) as [->|(ob & p & k & Gb & Kb)]; [left; auto|right].
          destruct (proj2 (proj2 S1) _ _ Gb) as (ob' & Gb' & (_ & Kb' & _)). exists ob', p, k. split; auto. congruence.
  Qed.
End All.

Lemma motion_isometry : forall mo m, rigid mo -> motion_matrix mo = Some m -> SpecMotion.isometry m.
Proof.
  intros mo m R E. destruct (rigid_iso mo m R E) as (A & D & N). split; [exact A|]. split.
  - destruct (minv m) as [i|] eqn:I; [exists i; apply minv_is_inverse; auto|]. apply minv_none in I. contradiction.
  - intros u v U V. assert (W : vw (vadd u v) = 0) by (unfold vadd; cbn [vw]; rewrite U, V; ring).
    pose proof (D _ W) as H. pose proof (D _ U) as HU. pose proof (D _ V) as HV. rewrite mapply_add in H.
    assert (Q : forall a b, vdot (vadd a b) (vadd a b) = vdot a a + 2 * vdot a b + vdot b b).
    { intros a b. unfold vdot, vadd; cbn [vx vy vz vw]. ring. }
    rewrite !Q in H. lra.
Qed.
Lemma move_matrix : forall x y z, motion_matrix (Move x y z) = Some (shift x y z).
Proof. reflexivity. Qed.
