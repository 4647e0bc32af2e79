(** * PinExact: what leaving a pin context does, for one pinned object *)
From Coq Require Import Reals List Bool Lra Lia.
Import ListNotations.
From Verif Require Import XR XRFacts Arr Lin LinFacts Prim Csg Surf World SpecWorld WorldFacts WorldFacts2 WorldFacts3 WorldFacts4 WorldFacts5 WorldExamples.
Open Scope R_scope.

Theorem pin_one : forall asort l h0 h1 h2 o0 o1, get h0 l = Some o0 -> get h1 l = Some o1 -> pin_exit asort [l] (pin_enter h0 [l]) h1 = Ok h2 ->
  exists c, mmul c (get_world_transform o1) = get_world_transform o0 /\
    (forall x ox, get h1 x = Some ox -> exists ox2, get h2 x = Some ox2 /\ get_world_transform ox2 = mmul (power (times h1 l x) c) (get_world_transform ox)) /\
    (forall x ox, get h0 x = Some ox -> times h1 l x = 1%nat ->
      ((exists ox2, get h2 x = Some ox2 /\ get_world_transform ox2 = get_world_transform ox) <-> same_place h0 h1 l x)).
Proof.
  intros asort l h0 h1 h2 o0 o1 G0 G1 H. unfold pin_enter in H. cbn [map] in H. rewrite G0 in H. cbn [option_map] in H. pose proof H as H'.
  destruct (pin_exit_cons _ _ _ _ _ _ _ H) as (o & si & t & h1' & G & I & E & T & R). cbn [pin_exit] in R. injection R as <-. rewrite G1 in G. injection G as <-.
  unfold get_world_transform in *. assert (EF : forall x ox, get h1 x = Some ox -> exists ox2, get h1' x = Some ox2 /\ o_world ox2 = mmul (power (times h1 l x) t) (o_world ox)).
  { intros x ox Gx. pose proof (transform_wld _ _ _ _ _ _ _ T Gx) as W. unfold wld in W. destruct (get h1' x) as [ox2|]; [|discriminate]. injection W as W. eauto. }
  assert (BK : forall x ox2, get h1' x = Some ox2 -> exists ox, get h1 x = Some ox).
  { intros x ox2 Gx. apply transform_effect in T. destruct (hrel_get_back _ _ _ _ _ T Gx) as (ox & ? & _). eauto. }
  exists t. split; [exact E|]. split; [exact EF|]. intros x ox Gx Tx.
  assert (IV : exists w, mmul (o_world o1) w = mid).
  { assert (D : mdet (o_world o1) <> 0). { intro Z. pose proof (is_inverse_det _ _ I) as D0. apply D0. rewrite <- E, mdet_mmul, Z. ring. }
    destruct (minv (o_world o1)) as [w|] eqn:M; [|apply minv_none in M; contradiction]. apply minv_is_inverse in M. exists w. apply M. }
  destruct IV as (w & IW). split.
  - intros (ox2 & G2 & E2). destruct (BK _ _ G2) as (x1 & Gx1). destruct (EF _ _ Gx1) as (ox2' & G2' & E2'). rewrite G2 in G2'. injection G2' as <-. rewrite Tx, power_1, E2 in E2'.
    exists (mmul w (o_world x1)), o0, ox, o1, x1. repeat (split; [assumption|]). rewrite <- !mmul_assoc.
    assert (R1 : mmul (mmul (o_world o1) w) (o_world x1) = o_world x1) by (rewrite IW; apply mmul_mid_l).
    split; [|symmetry; exact R1]. rewrite <- E, E2'. rewrite (mmul_assoc t), (mmul_assoc t), R1. reflexivity.
  - intros (r & ol & oy & ol' & ox' & A1 & A2 & A3 & A4 & E1 & E3). rewrite G0 in A1. injection A1 as <-. rewrite Gx in A2. injection A2 as <-. rewrite G1 in A3. injection A3 as <-.
    destruct (EF _ _ A4) as (ox2 & G2 & E2). exists ox2. split; auto. rewrite E2, Tx, power_1, E3, <- mmul_assoc, E, E1. reflexivity.
Qed.

(** a part moved on its own inside the context stays where it was moved to *)
Lemma pin_part_alone : forall asort, exists h h1 h2 o o2,
  run_prog asort [CSurface unit_cube Absorber; CSurface unit_cube Absorber; CCsg UNION 0%nat 1%nat] empty_heap = Ok h /\
  apply_motion asort 0%nat (Move 1 0 0) h = Ok h1 /\
  pin_exit asort [2]%nat (pin_enter h [2]%nat) h1 = Ok h2 /\
  get h 0%nat = Some o /\ get h2 0%nat = Some o2 /\ get_position o = point 0 0 0 /\ get_position o2 = point 1 0 0.
Proof.
  intro asort. do 5 eexists. split; [go; reflexivity|]. split; [go; reflexivity|]. split.
  - go. reflexivity.
  - split; [reflexivity|]. split; [reflexivity|]. split; [reflexivity|]. cbn. f_equal; ring.
Qed.
