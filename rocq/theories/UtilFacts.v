(** * UtilFacts: lemmas about utils.py and the glasses *)
From Coq Require Import Reals Lra Lia List Bool.
Import ListNotations.
From Verif Require Import XR Utils SpecUtils.
Open Scope R_scope.

(** ** Powers *)
Definition pw (g x : R) : R := pow_nn (Rabs x) g.
Lemma pw_0 : forall g, 0 < g -> pw g 0 = 0.
Proof.
  intros g G. unfold pw, pow_nn. rewrite Rabs_R0. destruct (Req_EM_T 0 0); [|lra]. destruct (Req_EM_T g 0); lra.
Qed.
Lemma pw_1 : forall g, pw g 1 = 1.
Proof.
  intros g. unfold pw, pow_nn. rewrite Rabs_R1. destruct (Req_EM_T 1 0); [lra|]. unfold Rpower. rewrite ln_1, Rmult_0_r, exp_0. reflexivity.
Qed.
Lemma pw_pos : forall g x, x <> 0 -> pw g x = Rpower (Rabs x) g.
Proof.
  intros g x N. unfold pw, pow_nn. destruct (Req_EM_T (Rabs x) 0) as [E|]; auto.
  exfalso. apply Rabs_no_R0 in N. lra.
Qed.
Lemma pw_range : forall g x, 0 < g -> Rabs x <= 1 -> 0 <= pw g x <= 1.
Proof.
  intros g x G X. destruct (Req_EM_T x 0) as [->|N]; [rewrite pw_0 by auto; lra|].
  rewrite pw_pos by auto. assert (P := Rabs_pos_lt x N). split; [apply Rlt_le, exp_pos|].
  replace 1 with (Rpower 1 g) by (unfold Rpower; rewrite ln_1, Rmult_0_r, exp_0; reflexivity).
  apply Rle_Rpower_l; lra.
Qed.
Lemma pw_one : forall x, 0 <= x -> pw 1 x = x.
Proof.
  intros x X. destruct (Req_EM_T x 0) as [->|N]; [apply pw_0; lra|]. rewrite pw_pos by auto.
  rewrite Rabs_right by lra. apply Rpower_1. lra.
Qed.
Lemma pw_continuous : forall g, 0 < g -> continuity (pw g).
Proof.
  intros g G x. destruct (Req_EM_T x 0) as [->|N].
  - intros eps E. exists (Rpower eps (/ g)). split; [apply exp_pos|].
    intros y [_ D]. simpl in *. unfold R_dist in *. rewrite pw_0 by auto. rewrite Rminus_0_r in *.
    destruct (Req_EM_T y 0) as [->|NY]; [rewrite pw_0, Rabs_R0 by auto; auto|].
    rewrite pw_pos by auto. rewrite (Rabs_right (Rpower (Rabs y) g)) by (apply Rle_ge, Rlt_le, exp_pos).
    assert (P := Rabs_pos_lt y NY).
    replace eps with (Rpower (Rpower eps (/ g)) g).
    + apply Rlt_Rpower_l; auto. 
    + rewrite Rpower_mult, Rinv_l by lra. apply Rpower_1; auto.
  - assert (P := Rabs_pos_lt x N).
    assert (C : continuity_pt (fun y => exp (g * ln (Rabs y))) x).
    { apply (continuity_pt_comp (fun y => g * ln (Rabs y)) exp).
      - apply (continuity_pt_scal (fun y => ln (Rabs y)) g).
        apply (continuity_pt_comp Rabs ln); [apply Rcontinuity_abs|].
        apply derivable_continuous_pt. exists (/ Rabs x). apply derivable_pt_lim_ln; auto.
      - apply derivable_continuous_pt, derivable_pt_exp. }
    intros eps E. destruct (C eps E) as [d [D H]].
    exists (Rmin d (Rabs x)). split; [apply Rmin_pos; auto|].
    intros y [Y1 Y2]. simpl in *. unfold R_dist in *.
    assert (NY : y <> 0).
    { intros ->. rewrite Rminus_0_l, Rabs_Ropp in Y2. pose proof (Rmin_r d (Rabs x)). lra. }
    rewrite !pw_pos by auto. apply (H y). split; auto. pose proof (Rmin_l d (Rabs x)). lra.
Qed.

(** ** Clipping *)
Definition clip (a b w : R) : R := Rmin (Rmax w a) b.
Lemma clip_low : forall a b w, a <= b -> w <= a -> clip a b w = a.
Proof. intros. unfold clip. rewrite Rmax_right, Rmin_left; lra. Qed.
Lemma clip_mid : forall a b w, a <= w <= b -> clip a b w = w.
Proof. intros. unfold clip. rewrite Rmax_left, Rmin_left; lra. Qed.
Lemma clip_high : forall a b w, a <= b -> b <= w -> clip a b w = b.
Proof. intros. unfold clip. rewrite Rmax_left, Rmin_right; lra. Qed.
Lemma clip_range : forall a b w, a <= b -> a <= clip a b w <= b.
Proof. intros. unfold clip. split; [apply Rmin_glb; [apply Rmax_r|auto]|apply Rmin_r]. Qed.
Lemma continuity_ext : forall f h : R -> R, (forall x, f x = h x) -> continuity f -> continuity h.
Proof.
  intros f h E C x eps P. destruct (C x eps P) as [d [D H]]. exists d. split; auto.
  intros y Y. rewrite <- !E. apply H, Y.
Qed.
Lemma clip_continuous : forall a b, continuity (clip a b).
Proof.
  intros a b.
  assert (M : continuity (fun w => (w + a + Rabs (w - a)) / 2)).
  { unfold Rdiv. apply (continuity_mult (fun w => w + a + Rabs (w - a)) (fun _ => / 2)); [|apply continuity_const; intros ? ?; reflexivity].
    apply (continuity_plus (fun w => w + a) (fun w => Rabs (w - a))).
    - apply (continuity_plus (fun w => w) (fun _ => a)); [apply derivable_continuous, derivable_id|apply continuity_const; intros ? ?; reflexivity].
    - apply (continuity_comp (fun w => w - a) Rabs); [|apply Rcontinuity_abs].
      apply (continuity_minus (fun w => w) (fun _ => a)); [apply derivable_continuous, derivable_id|apply continuity_const; intros ? ?; reflexivity]. }
  assert (M2 : continuity (fun w => (w + b - Rabs (w - b)) / 2)).
  { unfold Rdiv. apply (continuity_mult (fun w => w + b - Rabs (w - b)) (fun _ => / 2)); [|apply continuity_const; intros ? ?; reflexivity].
    apply (continuity_minus (fun w => w + b) (fun w => Rabs (w - b))).
    - apply (continuity_plus (fun w => w) (fun _ => b)); [apply derivable_continuous, derivable_id|apply continuity_const; intros ? ?; reflexivity].
    - apply (continuity_comp (fun w => w - b) Rabs); [|apply Rcontinuity_abs].
      apply (continuity_minus (fun w => w) (fun _ => b)); [apply derivable_continuous, derivable_id|apply continuity_const; intros ? ?; reflexivity]. }
  apply (continuity_ext (fun w => ((w + a + Rabs (w - a)) / 2 + b - Rabs ((w + a + Rabs (w - a)) / 2 - b)) / 2)).
  - intros w. unfold clip.
    assert (E : (w + a + Rabs (w - a)) / 2 = Rmax w a).
    { unfold Rmax, Rabs. destruct (Rle_dec w a); destruct (Rcase_abs (w - a)); lra. }
    rewrite E. set (m := Rmax w a). unfold Rmin, Rabs. destruct (Rle_dec m b); destruct (Rcase_abs (m - b)); lra.
  - apply (continuity_comp _ _ M M2).
Qed.

(** ** The colour map without zones *)
Definition att1 (u : R) : R := 3/10 + 7/10 * (u - 38/100) / (44/100 - 38/100).
Definition att6 (u : R) : R := 3/10 + 7/10 * (75/100 - u) / (75/100 - 645/1000).
Definition colour (g w : R) : rgb :=
  RGB (pw g (- (clip (38/100) (44/100) w - 44/100) / (44/100 - 38/100) * att1 (clip (38/100) (44/100) w))
       + pw g ((clip (51/100) (58/100) w - 51/100) / (58/100 - 51/100))
       + (pw g (att6 (clip (645/1000) (75/100) w)) - 1))
      (pw g ((clip (44/100) (49/100) w - 44/100) / (49/100 - 44/100))
       + (pw g ((645/1000 - clip (58/100) (645/1000) w) / (645/1000 - 58/100)) - 1))
      (pw g (att1 (clip (38/100) (44/100) w))
       + (pw g ((51/100 - clip (49/100) (51/100) w) / (51/100 - 49/100)) - 1)).

Lemma rltb_true : forall a b, a < b -> rltb a b = true.
Proof. intros. unfold rltb. destruct (Rlt_dec a b); tauto. Qed.
Lemma rltb_false : forall a b, b <= a -> rltb a b = false.
Proof. intros. unfold rltb. destruct (Rlt_dec a b); auto; lra. Qed.
Lemma rleb_true : forall a b, a <= b -> rleb a b = true.
Proof. intros. unfold rleb. destruct (Rle_dec a b); tauto. Qed.
Lemma rleb_false : forall a b, b < a -> rleb a b = false.
Proof. intros. unfold rleb. destruct (Rle_dec a b); auto; lra. Qed.
Ltac zones := repeat first [rewrite rltb_true by lra|rewrite rltb_false by lra|rewrite rleb_true by lra|rewrite rleb_false by lra];
  cbn [andb].
Ltac clips := repeat first [rewrite clip_low by lra|rewrite clip_high by lra|rewrite clip_mid by lra].

Ltac values G := repeat match goal with
  | |- context [pw ?g ?x] =>
      first [replace x with 0 by (unfold att1, att6; field); rewrite (pw_0 g G)
            |replace x with 1 by (unfold att1, att6; field); rewrite (pw_1 g)] end.
Lemma column_colour : forall junk g w, 0 < g -> rgb_column junk g w = colour g w.
Proof.
  intros junk g w G. unfold rgb_column, zone6, zone5, zone4, zone3, zone2, zone1. cbv zeta.
  fold (pw g (- (Rmax w (38/100) - 44/100) / (44/100 - 38/100) * (3/10 + 7/10 * (Rmax w (38/100) - 38/100) / (44/100 - 38/100)))).
  fold (pw g (1 * (3/10 + 7/10 * (Rmax w (38/100) - 38/100) / (44/100 - 38/100)))).
  fold (pw g ((w - 44/100) / (49/100 - 44/100))). fold (pw g ((51/100 - w) / (51/100 - 49/100))).
  fold (pw g ((w - 51/100) / (58/100 - 51/100))). fold (pw g ((645/1000 - w) / (645/1000 - 58/100))).
  fold (pw g (3/10 + 7/10 * (75/100 - Rmin w (75/100)) / (75/100 - 645/1000))).
  unfold colour.
  destruct (Rlt_or_le w (44/100)).
  { zones. assert (E : Rmax w (38/100) = clip (38/100) (44/100) w).
    { unfold clip. rewrite Rmin_left; auto. apply Rmax_lub; lra. }
    rewrite <- E. set (u := Rmax w (38/100)). rewrite (clip_low (51/100)), (clip_low (645/1000)), (clip_low (44/100)), (clip_low (58/100)), (clip_low (49/100)) by lra.
    replace ((51/100 - 51/100) / (58/100 - 51/100)) with 0 by field.
    replace (att6 (645/1000)) with 1 by (unfold att6; field).
    replace ((44/100 - 44/100) / (49/100 - 44/100)) with 0 by field.
    replace ((645/1000 - 58/100) / (645/1000 - 58/100)) with 1 by field.
    replace ((51/100 - 49/100) / (51/100 - 49/100)) with 1 by field.
    rewrite !pw_0, !pw_1 by auto. rewrite Rmult_1_l. unfold att1. f_equal; ring. }
  rewrite (clip_high (38/100)) by lra.
  replace (- (44/100 - 44/100) / (44/100 - 38/100) * att1 (44/100)) with 0 by (unfold att1; field).
  replace (att1 (44/100)) with 1 by (unfold att1; field). rewrite !pw_0, pw_1 by auto.
  destruct (Rlt_or_le w (49/100)).
  { zones. rewrite (clip_mid (44/100)), (clip_low (51/100)), (clip_low (645/1000)), (clip_low (58/100)), (clip_low (49/100)) by lra.
    replace ((51/100 - 51/100) / (58/100 - 51/100)) with 0 by field.
    replace (att6 (645/1000)) with 1 by (unfold att6; field).
    replace ((645/1000 - 58/100) / (645/1000 - 58/100)) with 1 by field.
    replace ((51/100 - 49/100) / (51/100 - 49/100)) with 1 by field.
    rewrite !pw_0, !pw_1 by auto. f_equal; ring. }
  rewrite (clip_high (44/100)) by lra. replace ((49/100 - 44/100) / (49/100 - 44/100)) with 1 by field. rewrite pw_1.
  destruct (Rlt_or_le w (51/100)).
  { zones. rewrite (clip_mid (49/100)), (clip_low (51/100)), (clip_low (645/1000)), (clip_low (58/100)) by lra.
    replace ((51/100 - 51/100) / (58/100 - 51/100)) with 0 by field.
    replace (att6 (645/1000)) with 1 by (unfold att6; field).
    replace ((645/1000 - 58/100) / (645/1000 - 58/100)) with 1 by field.
    rewrite !pw_0, !pw_1 by auto. f_equal; ring. }
  rewrite (clip_high (49/100)) by lra. replace ((51/100 - 51/100) / (51/100 - 49/100)) with 0 by field. rewrite pw_0 by auto.
  destruct (Rlt_or_le w (58/100)).
  { zones. rewrite (clip_mid (51/100)), (clip_low (645/1000)), (clip_low (58/100)) by lra.
    replace (att6 (645/1000)) with 1 by (unfold att6; field).
    replace ((645/1000 - 58/100) / (645/1000 - 58/100)) with 1 by field.
    rewrite !pw_1 by auto. f_equal; ring. }
  rewrite (clip_high (51/100)) by lra. replace ((58/100 - 51/100) / (58/100 - 51/100)) with 1 by field. rewrite pw_1.
  destruct (Rlt_or_le w (645/1000)).
  { zones. rewrite (clip_mid (58/100)), (clip_low (645/1000)) by lra.
    replace (att6 (645/1000)) with 1 by (unfold att6; field).
    rewrite !pw_1 by auto. f_equal; ring. }
  rewrite (clip_high (58/100)) by lra. replace ((645/1000 - 645/1000) / (645/1000 - 58/100)) with 0 by field. rewrite pw_0 by auto.
  zones.
  assert (E : Rmin w (75/100) = clip (645/1000) (75/100) w).
  { unfold clip. rewrite Rmax_left; auto. }
  rewrite <- E. unfold att6. f_equal; ring.
Qed.
