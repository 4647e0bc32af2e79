(** * FlWorldExamples: moving objects in binary64 *)
From Coq Require Import Reals List Bool ZArith Permutation Lra Lia Psatz.
Import ListNotations.
From Flocq Require Import Core.
From Verif Require Import XR XRFacts Lin LinFacts World SpecWorld WorldFacts3 Fl FlHits SpecFl FlFacts FlProps FlBinary FlStepBinary FlWorld SpecFlWorld FlWorldFacts FlWorldProps FlWorldMoves.
Open Scope R_scope.

Lemma leaves64 : leaves_numbers binary64.
Proof.
  split; [apply (exact_int 0); reflexivity|]. split; [apply (exact_int 1); reflexivity|]. intro x. unfold binary64.
  apply round_generic; [apply valid_rnd_N|]. apply generic_format_round; [apply FLT_exp_valid; reflexivity|apply valid_rnd_N].
Qed.
(** correctly rounded sine and cosine are one possibility *)
Definition sin64 (x : R) : R := binary64 (sin x).
Definition cos64 (x : R) : R := binary64 (cos x).
Lemma trig64 : trig_within (4 * u64) binary64 sin64 cos64.
Proof.
  pose proof eta64_small as (E0 & E1). pose proof u64_small as (V0 & V1).
  assert (K : forall y, -1 <= y <= 1 -> Rabs (binary64 y - y) <= 4 * u64).
  { intros y Y. eapply Rle_trans; [apply binary64_rounds|]. assert (Rabs y <= 1) by (apply Rabs_le; lra). nra. }
  intros x _. split; apply K; [apply SIN_bound|apply COS_bound].
Qed.

Lemma drift64 : forall n, (Z.of_nat n <= 2 ^ 30)%Z -> drift (per_movement u64 (4 * u64) 7) n <= INR n * / 50000000000000 /\ drift (per_movement u64 (4 * u64) 7) n <= / 2.
Proof.
  intros n N. assert (IN : 0 <= INR n <= 1073741824). { rewrite INR_IZR_INZ. split; apply IZR_le; lia. }
  unfold per_movement. rewrite u64_value. set (c := 21 * / 9007199254740992 + 2 * (4 * / 9007199254740992 + 5 * / 9007199254740992 * 7)).
  assert (C : c = 99 * / 9007199254740992) by (unfold c; lra). rewrite C.
  assert (H1 : INR n * (99 * / 9007199254740992) <= / 10000) by lra.
  pose proof (drift_linear (99 * / 9007199254740992) n ltac:(lra) ltac:(lra)) as D.
  assert (0 <= INR n * (99 * / 9007199254740992)) by lra.
  assert (INR n * (99 * / 9007199254740992) * (1 + INR n * (99 * / 9007199254740992)) <= INR n * (99 * / 9007199254740992) * (1 + / 10000)) by (apply Rmult_le_compat_l; lra).
  split; lra.
Qed.
Lemma tiny64 : forall P, / 1000000000000 <= P -> 16 * eta64 <= u64 * P.
Proof.
  intros P HP. assert (E : eta64 <= u64 * bpow radix2 (-100)).
  { unfold u64, eta64. rewrite <- bpow_plus. apply bpow_le. lia. }
  assert (B : bpow radix2 (-100) <= / 100000000000000000). { apply Rle_trans with (bpow radix2 (-60)); [apply bpow_le; lia|]. change (bpow radix2 (-60)) with (/ 1152921504606846976). lra. }
  pose proof u64_small as (V0 & _). assert (u64 * bpow radix2 (-100) <= u64 * / 100000000000000000) by (apply Rmult_le_compat_l; auto).
  assert (u64 * / 1000000000000 <= u64 * P) by (apply Rmult_le_compat_l; auto). lra.
Qed.
Theorem drift_in_binary64 : forall fsin fcos, trig_within (4 * u64) binary64 fsin fcos ->
  forall os r, Forall (gentle binary64 7) os -> fl_history binary64 fsin fcos os r -> (Z.of_nat (length os) <= 2 ^ 30)%Z ->
  let e := INR (length os) * / 50000000000000 in
  exists st m, r = Some st /\ composed os = Some m /\
    (forall P, / 1000000000000 <= P -> stays_within P os -> vnorm (vsub (fl_position st) (mapply m (point 0 0 0))) <= e * P) /\
    vnorm (vsub (fl_orientation st) (mapply m (vector 0 0 1))) <= 2 * e + / 100000000000000.
Proof.
  intros fsin fcos TW os r G H N e. pose proof u64_small as (V0 & V1). pose proof (drift64 _ N) as (D1 & D2). fold e in D1. clearbody e.
  destruct (objects_drift binary64 fsin fcos u64 eta64 (4 * u64) 7 u64_small eta64_small binary64_rounds leaves64 ltac:(lra) TW ltac:(lra) os r G H D2) as (st & m & R & C & B & O & _).
  exists st, m. split; auto. split; auto. split.
  - intros P HP SW. eapply Rle_trans; [apply (B P (tiny64 P HP) SW)|]. apply Rmult_le_compat_r; [clear - HP; lra|exact D1].
  - eapply Rle_trans; [exact O|]. rewrite u64_value. rewrite u64_value in D1. clear - D1. lra.
Qed.

(** ** A small move is lost behind a long one *)
Definition tiny : R := bpow radix2 (-20).
Definition huge : R := bpow radix2 35.
Definition lost : list motion := [Move tiny 0 0; Move huge 0 0; Move (- huge) 0 0].
Lemma pow64 : forall e, (-1074 <= e)%Z -> binary64 (bpow radix2 e) = bpow radix2 e.
Proof. intros e E. pose proof (binary64_exact 1 e ltac:(reflexivity) E) as H. unfold F2R in H. cbn [Fnum Fexp] in H. rewrite Rmult_1_l in H. exact H. Qed.
Lemma zero64 : binary64 0 = 0. Proof. apply (exact_int 0). reflexivity. Qed.
Lemma tiny_number : binary64 tiny = tiny. Proof. apply pow64. lia. Qed.
Lemma huge_number : binary64 huge = huge. Proof. apply pow64. lia. Qed.
Lemma minus_huge : binary64 (- huge) = - huge. Proof. unfold binary64. rewrite round_NE_opp. fold binary64. f_equal. exact huge_number. Qed.
Lemma lost_moves : Forall (is_move binary64) lost.
Proof. repeat constructor; auto using tiny_number, huge_number, minus_huge, zero64. Qed.
Lemma lost_tally : tally binary64 (point 0 0 0) lost = point 0 0 0.
Proof.
  unfold lost. cbn [tally point vx vy vz]. rewrite !Rplus_0_l, !zero64, ?Rplus_0_l, ?zero64, ?Rplus_0_l, ?zero64, tiny_number.
  rewrite (Rplus_comm tiny huge). rewrite (far_any huge tiny huge_number).
  - replace (huge + - huge) with 0 by ring. rewrite zero64. reflexivity.
  - unfold huge. rewrite Rabs_right; [lra|]. apply Rle_ge, bpow_ge_0.
  - unfold tiny. rewrite Rabs_right by (apply Rle_ge, bpow_ge_0). apply bpow_lt. lia.
Qed.
Lemma lost_exact : exists m, composed lost = Some m /\ mapply m (point 0 0 0) = point tiny 0 0.
Proof. eexists. split; [reflexivity|]. vsimp. f_equal; ring. Qed.

(** every list of accepted movements has a history, as long as the object can report its direction *)
Lemma gentle_matrix : forall rnd fsin fcos A o, gentle rnd A o -> exists t, fl_motion_matrix rnd fsin fcos o = Some t.
Proof.
  intros rnd fsin fcos A [x y z|x y z|a un|a un|a un|m] G; cbn in G; try contradiction; cbn [fl_motion_matrix]; eauto.
  all: destruct G as (_ & G); destruct un; cbn [fl_sin_cos]; try contradiction; eauto.
Qed.
Lemma histories_exist : forall rnd fsin fcos u eta delta A, 0 <= u <= / 1000000 -> 0 <= eta <= u * / 1000000 -> rounds_within u eta rnd -> leaves_numbers rnd ->
  0 <= delta -> trig_within delta rnd fsin fcos -> 1 <= A ->
  forall os, Forall (gentle rnd A) os -> drift (per_movement u delta A) (length os) <= / 2 -> exists st, fl_history rnd fsin fcos os (Some st).
Proof.
  intros rnd fsin fcos u eta delta A U E RW LN D0 TW A1 os. induction os as [|o os IH] using rev_ind; intros G D; [eexists; constructor|].
  apply Forall_app in G as G'. destruct G' as (G1 & G2). inversion G2 as [|? ? GO _]; subst.
  assert (DD : drift (per_movement u delta A) (length os) <= / 2).
  { rewrite app_length, Nat.add_comm in D. cbn [length Nat.add] in D. unfold drift in *. cbn [pow] in D.
    assert (C : 0 <= per_movement u delta A) by (unfold per_movement; nra). pose proof (pow_R1_Rle (1 + per_movement u delta A) (length os) ltac:(lra)). nra. }
  destruct (IH G1 DD) as (st & H). destruct (gentle_matrix rnd fsin fcos A o GO) as (t & F). destruct (call_exists rnd fsin fcos st o t F) as (r & C).
  assert (HH : fl_history rnd fsin fcos (os ++ [o]) r) by (eapply Fl_moved; eauto).
  destruct (objects_drift rnd fsin fcos u eta delta A U E RW LN D0 TW A1 _ r G HH D) as (st' & m & -> & _). eauto.
Qed.
Lemma lost_gentle : Forall (gentle binary64 7) lost.
Proof. eapply Forall_impl; [|exact lost_moves]. intros [x y z| | | | |] H; cbn in *; auto; contradiction. Qed.
Lemma lost_history : exists st, fl_history binary64 sin64 cos64 lost (Some st).
Proof.
  pose proof u64_small. apply (histories_exist binary64 sin64 cos64 u64 eta64 (4 * u64) 7 u64_small eta64_small binary64_rounds leaves64 ltac:(lra) trig64 ltac:(lra)); [exact lost_gentle|].
  apply drift64. cbn. lia.
Qed.

(** there and back with turns on the way *)
Definition tour : list motion := [Move 3 0 0; RotZ 90 Deg; RotZ 90 Deg; Move 3 0 0; RotZ 180 Deg].
Lemma int_number : forall z, (Z.abs z < 2 ^ 53)%Z -> binary64 (IZR z) = IZR z.
Proof. intros. apply exact_int. auto. Qed.
Lemma tour_gentle : Forall (gentle binary64 7) tour.
Proof.
  assert (Q : forall z, (Z.abs z < 2 ^ 53)%Z -> 0 <= IZR z <= 300 -> turn binary64 7 (IZR z) Deg).
  { intros z B (L & H). split; [apply int_number; auto|]. rewrite Rabs_right by lra. pose proof PI_4. pose proof PI_RGT_0. nra. }
  unfold tour. repeat match goal with |- Forall _ (_ :: _) => constructor | |- Forall _ [] => constructor end; cbn [gentle]; try (apply Q; [reflexivity|lra]); repeat split; apply int_number; reflexivity.
Qed.
