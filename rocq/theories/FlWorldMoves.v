(** * FlWorldMoves: moves round once; parts stay together; round trips *)
From Coq Require Import Reals List Bool ZArith Permutation Lra Lia Psatz.
Import ListNotations.
From Verif Require Import XR XRFacts Lin LinFacts World SpecWorld WorldFacts3 SpecOptics Fl FlHits SpecFl FlFacts FlProps FlOptics FlWorld SpecFlWorld FlWorldFacts FlWorldProps.
Open Scope R_scope.

Section Moves.
  Variable rnd : R -> R.
  Variables fsin fcos : R -> R.
  Hypothesis LN : leaves_numbers rnd.

  (** what every history without [transform] keeps *)
  Definition sound (w : mat) : Prop := row3 w = V4 0 0 0 1 /\ nums rnd (row0 w) /\ nums rnd (row1 w) /\ nums rnd (row2 w) /\ nums rnd (row3 w).
  Definition sound_object (st : fl_object) : Prop := sound (fl_world st) /\ fl_position st = row3 (mtrans (fl_world st)).
  Lemma motion_bottom : forall o t, no_matrix o -> fl_motion_matrix rnd fsin fcos o = Some t -> row3 t = V4 0 0 0 1.
  Proof.
    intros [x y z|x y z|a un|a un|a un|m] t N H; cbn [fl_motion_matrix] in H; try destruct N.
    - injection H as <-. reflexivity.
    - destruct (rltb x 0 || rltb y 0 || rltb z 0)%bool; [discriminate|]. injection H as <-. reflexivity.
    - destruct (fl_sin_cos rnd fsin fcos a un) as [[s k]|]; [|discriminate]. injection H as <-. reflexivity.
    - destruct (fl_sin_cos rnd fsin fcos a un) as [[s k]|]; [|discriminate]. injection H as <-. reflexivity.
    - destruct (fl_sin_cos rnd fsin fcos a un) as [[s k]|]; [|discriminate]. injection H as <-. reflexivity.
  Qed.
  Lemma image_bottom : forall t v v', row3 t = V4 0 0 0 1 -> rnd (vw v) = vw v -> fl_image rnd t v v' -> vw v' = vw v.
  Proof. intros t v v' B N (_ & _ & _ & H). rewrite B in H. exact (bottom_row rnd LN v _ H N). Qed.
  Lemma matmul_sound : forall t w w', row3 t = V4 0 0 0 1 -> sound w -> fl_matmul rnd t w w' -> sound w'.
  Proof.
    intros t w w' B (RB & N0 & N1 & N2 & N3) (I0 & I1 & I2 & I3). destruct (columns_nums rnd w N0 N1 N2 N3) as (M0 & M1 & M2 & M3).
    destruct (rows_nums rnd w' (image_numbers rnd LN _ _ _ I0) (image_numbers rnd LN _ _ _ I1) (image_numbers rnd LN _ _ _ I2) (image_numbers rnd LN _ _ _ I3)) as (X0 & X1 & X2 & X3).
    split; auto. apply bottom_of.
    - rewrite (image_bottom _ _ _ B (proj2 (proj2 (proj2 M0))) I0). cbn [mtrans row0 vw]. rewrite RB. reflexivity.
    - rewrite (image_bottom _ _ _ B (proj2 (proj2 (proj2 M1))) I1). cbn [mtrans row1 vw]. rewrite RB. reflexivity.
    - rewrite (image_bottom _ _ _ B (proj2 (proj2 (proj2 M2))) I2). cbn [mtrans row2 vw]. rewrite RB. reflexivity.
    - rewrite (image_bottom _ _ _ B (proj2 (proj2 (proj2 M3))) I3). cbn [mtrans row3 vw]. rewrite RB. reflexivity.
  Qed.
  Lemma handler_sound : forall w st, sound w -> fl_handler rnd w (Some st) -> fl_world st = w /\ sound_object st.
  Proof.
    intros w st S H. pose proof S as (_ & N0 & N1 & N2 & N3). inversion H as [p d s Hp Hd Hs LT E|]; subst. cbn [fl_world]. split; auto. split; cbn [fl_world fl_position]; auto.
    exact (proj1 (image_axis rnd LN w p N0 N1 N2 N3) Hp).
  Qed.
  Lemma new_sound : sound_object fl_new.
  Proof. destruct LN as (R0' & R1' & _). split; [|reflexivity]. split; [reflexivity|]. repeat split; cbn; auto. Qed.
  Lemma history_sound : forall os r, fl_history rnd fsin fcos os r -> Forall no_matrix os -> forall st, r = Some st -> sound_object st.
  Proof.
    intros os r H. induction H as [|os st o r H IH (t & w & F & MM & HR)]; intros N st' E.
    - injection E as <-. exact new_sound.
    - subst r. apply Forall_app in N. destruct N as (N & NO). inversion NO as [|? ? NO' _]; subst. destruct (IH N st eq_refl) as (S & _).
      exact (proj2 (handler_sound w st' (matmul_sound _ _ _ (motion_bottom _ _ NO' F) S MM) HR)).
  Qed.
  (** ** a move *)
  Lemma move_call : forall st x y z st', sound_object st -> rnd x = x -> rnd y = y -> rnd z = z -> fl_call rnd fsin fcos st (Move x y z) (Some st') ->
    fl_position st' = point (rnd (vx (fl_position st) + x)) (rnd (vy (fl_position st) + y)) (rnd (vz (fl_position st) + z)) /\
    (forall v, vw v = 0 -> mapply (fl_world st') v = mapply (fl_world st) v) /\ sound_object st'.
  Proof.
    intros st x y z st' (S & PO) X Y Z (t & w & F & MM & HR). cbn [fl_motion_matrix] in F. injection F as <-. fold (shift_mat x y z) in *.
    pose proof S as (RB & N0 & N1 & N2 & N3). destruct (columns_nums rnd _ N0 N1 N2 N3) as (M0 & M1 & M2 & M3). pose proof MM as (I0 & I1 & I2 & I3).
    destruct (handler_sound w st' (matmul_sound (shift_mat x y z) _ _ eq_refl S MM) HR) as (W & S' & PO').
    assert (V0 : vw (row0 (mtrans (fl_world st))) = 0) by (cbn [mtrans row0 vw]; rewrite RB; reflexivity).
    assert (V1 : vw (row1 (mtrans (fl_world st))) = 0) by (cbn [mtrans row1 vw]; rewrite RB; reflexivity).
    assert (V2 : vw (row2 (mtrans (fl_world st))) = 0) by (cbn [mtrans row2 vw]; rewrite RB; reflexivity).
    assert (V3 : vw (row3 (mtrans (fl_world st))) = 1) by (cbn [mtrans row3 vw]; rewrite RB; reflexivity).
    pose proof (proj1 (move_image rnd LN x y z _ _ X Y Z M0 I0) V0) as Y0. pose proof (proj1 (move_image rnd LN x y z _ _ X Y Z M1 I1) V1) as Y1.
    pose proof (proj1 (move_image rnd LN x y z _ _ X Y Z M2 I2) V2) as Y2. pose proof (proj2 (move_image rnd LN x y z _ _ X Y Z M3 I3) V3) as Y3.
    split; [|split; [|split; auto]].
    - rewrite PO', PO, W, Y3. reflexivity.
    - intros [a b d e] E. cbn in E. subst e. rewrite W.
      assert (C : forall k, mapply k (V4 a b d 0) = vadd (vscale a (row0 (mtrans k))) (vadd (vscale b (row1 (mtrans k))) (vscale d (row2 (mtrans k))))) by (intro k; vring).
      rewrite !C, Y0, Y1, Y2. reflexivity.
  Qed.
  Lemma tally_snoc : forall os p x y z, Forall (is_move rnd) os ->
    tally rnd p (os ++ [Move x y z]) = let q := tally rnd p os in point (rnd (vx q + x)) (rnd (vy q + y)) (rnd (vz q + z)).
  Proof.
    induction os as [|o os IH]; intros p x y z H; [reflexivity|]. inversion H as [|? ? M H']; subst. destruct o; cbn in M; try destruct M. cbn [tally app]. apply IH; auto.
  Qed.
  Lemma moves_only : forall os r, fl_history rnd fsin fcos os r -> Forall (is_move rnd) os -> forall st, r = Some st ->
    fl_position st = tally rnd (point 0 0 0) os /\ (forall v, vw v = 0 -> mapply (fl_world st) v = v) /\ sound_object st.
  Proof.
    intros os r H. induction H as [|os st o r H IH C]; intros M st' E.
    - injection E as <-. split; [reflexivity|]. split; [intros; apply mapply_mid|exact new_sound].
    - subst r. apply Forall_app in M. destruct M as (M & MO). inversion MO as [|? ? MO' _]; subst. destruct o as [x y z| | | | |]; cbn in MO'; try destruct MO'.
      destruct H1 as (Y & Z). destruct (IH M st eq_refl) as (P & V & S). destruct (move_call st x y z st' S H0 Y Z C) as (P' & V' & S').
      split; [rewrite P', P, tally_snoc by auto; reflexivity|]. split; auto. intros v W. rewrite V', V; auto.
  Qed.
End Moves.

(** ** Existence *)
Lemma rdot_exists4 : forall rnd v w, exists x, rdot rnd (pairs v w) x.
Proof.
  intros rnd [a b c d] [a' b' c' d']. unfold pairs, coords; cbn. eexists.
  eapply Rdot_fma; [apply Permutation_refl|]. eapply Rdot_fma; [apply Permutation_refl|]. eapply Rdot_fma; [apply Permutation_refl|]. apply Rdot_mul.
Qed.
Lemma image_any : forall rnd m v, exists v', fl_image rnd m v v'.
Proof.
  intros rnd m v. destruct (rdot_exists4 rnd (row0 m) v) as [a A], (rdot_exists4 rnd (row1 m) v) as [b B], (rdot_exists4 rnd (row2 m) v) as [c C], (rdot_exists4 rnd (row3 m) v) as [d D].
  exists (V4 a b c d). repeat split; auto.
Qed.
Lemma call_exists : forall rnd fsin fcos st o t, fl_motion_matrix rnd fsin fcos o = Some t -> exists r, fl_call rnd fsin fcos st o r.
Proof.
  intros rnd fsin fcos st o t F. destruct (image_any rnd t (row0 (mtrans (fl_world st)))) as [c0 C0], (image_any rnd t (row1 (mtrans (fl_world st)))) as [c1 C1],
    (image_any rnd t (row2 (mtrans (fl_world st)))) as [c2 C2], (image_any rnd t (row3 (mtrans (fl_world st)))) as [c3 C3].
  set (w := mtrans (M4 c0 c1 c2 c3)). assert (MM : fl_matmul rnd t (fl_world st) w).
  { unfold w. repeat split; cbn [mtrans row0 row1 row2 row3 vx vy vz vw]; first [apply C0|apply C1|apply C2|apply C3]. }
  destruct (image_any rnd w (vector 0 0 1)) as [d Hd]. destruct (image_any rnd w (point 0 0 0)) as [p Hp]. destruct (rdot_exists4 rnd d d) as [q Hq].
  assert (FN : fl_norm rnd d (rnd (sqrt q))) by (exists q; auto).
  destruct (rltb (rnd (sqrt q)) (rnd (1 / 10000000))) eqn:L.
  - exists None, t, w. split; auto. split; auto. eapply Fl_error; eauto.
  - eexists (Some _), t, w. split; auto. split; auto. eapply Fl_set; eauto.
Qed.

(** ** Parts that are moved together *)
Lemma composed_app : forall a b, composed (a ++ b) = match composed a, composed b with Some x, Some y => Some (mmul y x) | _, _ => None end.
Proof.
  induction a as [|o a IH]; intro b; cbn [composed app].
  - destruct (composed b); [rewrite mmul_mid_r|]; reflexivity.
  - rewrite IH. destruct (motion_matrix o) as [t|]; [|reflexivity]. destruct (composed a) as [x|]; [|reflexivity]. destruct (composed b) as [y|]; [|reflexivity].
    f_equal. apply mmul_assoc.
Qed.
Lemma gentle_rigid : forall rnd A o, gentle rnd A o -> rigid o.
Proof. intros rnd A [x y z|x y z|a u|a u|a u|m] G; cbn in *; auto; contradiction. Qed.
Lemma gentle_iso : forall rnd A os m, Forall (gentle rnd A) os -> composed os = Some m -> isometry m.
Proof.
  intros rnd A. induction os as [|o os IH]; intros m G C; cbn [composed] in C.
  - injection C as <-. split; [reflexivity|]. split; [intros; rewrite mapply_mid; reflexivity|]. unfold mdet, mid; cbn. lra.
  - inversion G as [|? ? GO G']; subst. destruct (motion_matrix o) as [t|] eqn:M; [|discriminate]. destruct (composed os) as [x|]; [|discriminate]. injection C as <-.
    apply iso_mmul; [apply IH; auto|]. eapply rigid_iso; eauto using gentle_rigid.
Qed.
Theorem parts_together : forall rnd fsin fcos u eta delta A, 0 <= u <= / 1000000 -> 0 <= eta <= u * / 1000000 -> rounds_within u eta rnd -> leaves_numbers rnd ->
  0 <= delta -> trig_within delta rnd fsin fcos -> 1 <= A ->
  forall place place' os r r', Forall (gentle rnd A) (place ++ os) -> Forall (gentle rnd A) (place' ++ os) ->
  fl_history rnd fsin fcos (place ++ os) r -> fl_history rnd fsin fcos (place' ++ os) r' ->
  let e := drift (per_movement u delta A) (length (place ++ os)) in let e' := drift (per_movement u delta A) (length (place' ++ os)) in e <= / 2 -> e' <= / 2 ->
  forall P, 16 * eta <= u * P -> stays_within P (place ++ os) -> stays_within P (place' ++ os) ->
  exists st st' m m', r = Some st /\ r' = Some st' /\ composed place = Some m /\ composed place' = Some m' /\
    Rabs (vnorm (vsub (fl_position st) (fl_position st')) - vnorm (vsub (mapply m (point 0 0 0)) (mapply m' (point 0 0 0)))) <= (e + e') * P.
Proof.
  intros rnd fsin fcos u eta delta A U E RW LN D0 TW A1 place place' os r r' G G' H H' e e' HE HE' P EP SW SW'.
  destruct (objects_drift rnd fsin fcos u eta delta A U E RW LN D0 TW A1 _ r G H HE) as (st & k & R & C & B & _).
  destruct (objects_drift rnd fsin fcos u eta delta A U E RW LN D0 TW A1 _ r' G' H' HE') as (st' & k' & R' & C' & B' & _).
  rewrite composed_app in C, C'. destruct (composed place) as [m|] eqn:CM; [|discriminate]. destruct (composed place') as [m'|] eqn:CM' ; [|discriminate].
  destruct (composed os) as [x|] eqn:CX; [|discriminate]. injection C as <-. injection C' as <-. specialize (B P EP SW). specialize (B' P EP SW').
  exists st, st', m, m'. do 4 (split; auto). rewrite !mapply_mmul in *.
  assert (IX : isometry x) by (eapply gentle_iso; [|exact CX]; apply Forall_app in G; apply G).
  set (a := mapply m (point 0 0 0)) in *. set (b := mapply m' (point 0 0 0)) in *.
  assert (IM : isometry m) by (eapply gentle_iso; [|exact CM]; apply Forall_app in G; apply G).
  assert (IM' : isometry m') by (eapply gentle_iso; [|exact CM']; apply Forall_app in G'; apply G').
  assert (W : vw (vsub a b) = 0) by (unfold a, b, vsub, vadd, vopp, vscale; cbn [vw]; rewrite (affine_w m _ (proj1 IM)), (affine_w m' _ (proj1 IM')); cbn; ring).
  pose proof (iso_norm x (vsub a b) IX W) as NX. replace (mapply x (vsub a b)) with (vsub (mapply x a) (mapply x b)) in NX by vring. rewrite <- NX.
  eapply Rle_trans; [apply vnorm_close|].
  replace (vsub (vsub (fl_position st) (fl_position st')) (vsub (mapply x a) (mapply x b))) with (vsub (vsub (fl_position st) (mapply x a)) (vsub (fl_position st') (mapply x b))) by vring.
  eapply Rle_trans; [apply vnorm_sub|]. rewrite Rmult_plus_distr_r. apply Rplus_le_compat; assumption.
Qed.

(** ** Long histories: the drift grows with their length *)
Lemma drift_linear : forall c n, 0 <= c -> INR n * c <= 1 -> drift c n <= INR n * c * (1 + INR n * c).
Proof.
  intros c n C. unfold drift. induction n as [|n IH]; intro H; [cbn; lra|]. rewrite S_INR in *. pose proof (pos_INR n) as N. cbn [pow].
  assert (H' : INR n * c <= 1) by nra. specialize (IH H'). set (k := INR n) in *. set (p := (1 + c) ^ n) in *.
  assert (Q : (1 + c) * p <= (1 + c) * (1 + k * c * (1 + k * c))) by (apply Rmult_le_compat_l; lra).
  assert (T : k * c * (k * c) * c <= 1 * (k * c) * c). { apply Rmult_le_compat_r; auto. apply Rmult_le_compat_r; [nra|auto]. }
  assert (0 <= c * c) by nra. nra.
Qed.
