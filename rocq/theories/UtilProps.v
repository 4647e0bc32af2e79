(** * UtilProps: the properties of utils.py and of the glasses *)
From Coq Require Import Reals Lra Lia Psatz List Bool.
Import ListNotations.
From Verif Require Import XR Surf SpecTrace Utils SpecUtils UtilFacts.
Open Scope R_scope.

(** ** Colours *)
Lemma unit_pw : forall g x, 0 < g -> 0 <= x <= 1 -> 0 <= pw g x <= 1.
Proof. intros. apply pw_range; auto. rewrite Rabs_right; lra. Qed.
Ltac frac := match goal with |- 0 <= ?a / ?b <= 1 =>
  assert (0 < b) by lra; split; [apply Rmult_le_pos; [lra|apply Rlt_le, Rinv_0_lt_compat; lra]
  |apply (Rmult_le_reg_r b); [lra|unfold Rdiv; rewrite Rmult_assoc, Rinv_l; lra]] end.
Lemma att1_range : forall u, 38/100 <= u <= 44/100 -> 3/10 <= att1 u <= 1.
Proof. intros u U. unfold att1. replace (44/100 - 38/100) with (6/100) by field. lra. Qed.
Lemma att6_range : forall u, 645/1000 <= u <= 75/100 -> 3/10 <= att6 u <= 1.
Proof. intros u U. unfold att6. replace (75/100 - 645/1000) with (105/1000) by field. lra. Qed.
Lemma ramp1_range : forall u, 38/100 <= u <= 44/100 -> 0 <= - (u - 44/100) / (44/100 - 38/100) * att1 u <= 1.
Proof.
  intros u U. pose proof (att1_range u U).
  assert (0 <= - (u - 44/100) / (44/100 - 38/100) <= 1) by frac. split; nra.
Qed.
Lemma colour_displayable : forall g w, 0 < g -> displayable (colour g w).
Proof.
  intros g w G. rewrite <- (column_colour (RGB 0 0 0) g w G).
  unfold rgb_column, zone6, zone5, zone4, zone3, zone2, zone1. cbv zeta.
  fold (pw g (- (Rmax w (38/100) - 44/100) / (44/100 - 38/100) * (3/10 + 7/10 * (Rmax w (38/100) - 38/100) / (44/100 - 38/100)))).
  fold (pw g (1 * (3/10 + 7/10 * (Rmax w (38/100) - 38/100) / (44/100 - 38/100)))).
  fold (pw g ((w - 44/100) / (49/100 - 44/100))). fold (pw g ((51/100 - w) / (51/100 - 49/100))).
  fold (pw g ((w - 51/100) / (58/100 - 51/100))). fold (pw g ((645/1000 - w) / (645/1000 - 58/100))).
  fold (pw g (3/10 + 7/10 * (75/100 - Rmin w (75/100)) / (75/100 - 645/1000))).
  unfold displayable.
  destruct (Rlt_or_le w (44/100)).
  { zones. set (u := Rmax w (38/100)). assert (U : 38/100 <= u <= 44/100).
    { unfold u. split; [apply Rmax_r|apply Rmax_lub; lra]. }
    fold (att1 u). rewrite Rmult_1_l. cbn [red green blue]. split; [apply unit_pw, ramp1_range; auto|]. split; [lra|].
    apply unit_pw; auto. pose proof (att1_range u U). lra. }
  destruct (Rlt_or_le w (49/100)). { zones. cbn [red green blue]. split; [lra|]. split; [apply unit_pw; auto; frac|lra]. }
  destruct (Rlt_or_le w (51/100)). { zones. cbn [red green blue]. split; [lra|]. split; [lra|]. apply unit_pw; auto; frac. }
  destruct (Rlt_or_le w (58/100)). { zones. cbn [red green blue]. split; [apply unit_pw; auto; frac|lra]. }
  destruct (Rlt_or_le w (645/1000)). { zones. cbn [red green blue]. split; [lra|]. split; [apply unit_pw; auto; frac|lra]. }
  zones. set (u := Rmin w (75/100)). assert (U : 645/1000 <= u <= 75/100).
  { unfold u. split; [apply Rmin_glb; lra|apply Rmin_r]. }
  fold (att6 u). cbn [red green blue]. split; [|lra]. apply unit_pw; auto. pose proof (att6_range u U). lra.
Qed.
Lemma affine_continuous : forall a b, continuity (fun u => a * u + b).
Proof.
  intros. apply (continuity_plus (fun u => a * u) (fun _ => b)); [|apply continuity_const; intros ? ?; reflexivity].
  apply (continuity_scal (fun u => u) a), derivable_continuous, derivable_id.
Qed.
Lemma pw_comp : forall g f a b, 0 < g -> continuity f -> continuity (fun w => pw g (f (clip a b w))).
Proof.
  intros g f a b G F. apply (continuity_comp (fun w => f (clip a b w)) (pw g)); [|apply pw_continuous; auto].
  apply (continuity_comp (clip a b) f); [apply clip_continuous|auto].
Qed.
Lemma minus_one : forall f, continuity f -> continuity (fun w => f w - 1).
Proof. intros f F. apply (continuity_minus f (fun _ => 1)); [auto|apply continuity_const; intros ? ?; reflexivity]. Qed.
Lemma att1_cont : continuity att1.
Proof. apply (continuity_ext (fun u => (7/10 / (44/100 - 38/100)) * u + (3/10 - 7/10 * (38/100) / (44/100 - 38/100)))); [intros; unfold att1; field|apply affine_continuous]. Qed.
Lemma att6_cont : continuity att6.
Proof. apply (continuity_ext (fun u => (- (7/10) / (75/100 - 645/1000)) * u + (3/10 + 7/10 * (75/100) / (75/100 - 645/1000)))); [intros; unfold att6; field|apply affine_continuous]. Qed.
Lemma colour_continuous : forall g, 0 < g -> continuous_colour (colour g).
Proof.
  intros g G. unfold continuous_colour, colour. cbn [red green blue]. split; [|split].
  - apply (continuity_plus (fun w => pw g (- (clip (38/100) (44/100) w - 44/100) / (44/100 - 38/100) * att1 (clip (38/100) (44/100) w))
       + pw g ((clip (51/100) (58/100) w - 51/100) / (58/100 - 51/100))) (fun w => pw g (att6 (clip (645/1000) (75/100) w)) - 1)).
    + apply (continuity_plus (fun w => pw g (- (clip (38/100) (44/100) w - 44/100) / (44/100 - 38/100) * att1 (clip (38/100) (44/100) w)))
         (fun w => pw g ((clip (51/100) (58/100) w - 51/100) / (58/100 - 51/100)))).
      * apply (pw_comp g (fun u => - (u - 44/100) / (44/100 - 38/100) * att1 u)); auto.
        apply (continuity_mult (fun u => - (u - 44/100) / (44/100 - 38/100)) att1); [|apply att1_cont].
        apply (continuity_ext (fun u => (- / (44/100 - 38/100)) * u + (44/100) / (44/100 - 38/100))); [intros; field|apply affine_continuous].
      * apply (pw_comp g (fun u => (u - 51/100) / (58/100 - 51/100))); auto.
        apply (continuity_ext (fun u => (/ (58/100 - 51/100)) * u + - (51/100) / (58/100 - 51/100))); [intros; field|apply affine_continuous].
    + apply minus_one, (pw_comp g att6); auto. apply att6_cont.
  - apply (continuity_plus (fun w => pw g ((clip (44/100) (49/100) w - 44/100) / (49/100 - 44/100)))
       (fun w => pw g ((645/1000 - clip (58/100) (645/1000) w) / (645/1000 - 58/100)) - 1)).
    + apply (pw_comp g (fun u => (u - 44/100) / (49/100 - 44/100))); auto.
      apply (continuity_ext (fun u => (/ (49/100 - 44/100)) * u + - (44/100) / (49/100 - 44/100))); [intros; field|apply affine_continuous].
    + apply minus_one, (pw_comp g (fun u => (645/1000 - u) / (645/1000 - 58/100))); auto.
      apply (continuity_ext (fun u => (- / (645/1000 - 58/100)) * u + (645/1000) / (645/1000 - 58/100))); [intros; field|apply affine_continuous].
  - apply (continuity_plus (fun w => pw g (att1 (clip (38/100) (44/100) w)))
       (fun w => pw g ((51/100 - clip (49/100) (51/100) w) / (51/100 - 49/100)) - 1)).
    + apply (pw_comp g att1); auto. apply att1_cont.
    + apply minus_one, (pw_comp g (fun u => (51/100 - u) / (51/100 - 49/100))); auto.
      apply (continuity_ext (fun u => (- / (51/100 - 49/100)) * u + (51/100) / (51/100 - 49/100))); [intros; field|apply affine_continuous].
Qed.
Lemma colour_outside : forall g w, (w <= 38/100 -> colour g w = colour g (38/100)) /\ (75/100 <= w -> colour g w = colour g (75/100)).
Proof.
  intros g w. split; intros W; unfold colour.
  - rewrite !(clip_low _ _ w) by lra. rewrite !(clip_low _ _ (38/100)) by lra. reflexivity.
  - rewrite !(clip_high _ _ w) by lra. rewrite !(clip_high _ _ (75/100)) by lra. reflexivity.
Qed.
Lemma colour_anchors : forall g w c, 0 < g -> In (w, c) anchors -> colour g w = c.
Proof.
  intros g w c G H. rewrite <- (column_colour (RGB 0 0 0) g w G).
  unfold rgb_column, zone6, zone5, zone4, zone3, zone2, zone1. cbv zeta.
  unfold anchors in H. simpl in H.
  repeat (destruct H as [H|H]; [injection H as <- <-; zones|]); try tauto.
  - fold (pw g ((44/100 - 44/100) / (49/100 - 44/100))). replace ((44/100 - 44/100) / (49/100 - 44/100)) with 0 by field. rewrite pw_0 by auto. reflexivity.
  - fold (pw g ((51/100 - 49/100) / (51/100 - 49/100))). replace ((51/100 - 49/100) / (51/100 - 49/100)) with 1 by field. rewrite pw_1. reflexivity.
  - fold (pw g ((51/100 - 51/100) / (58/100 - 51/100))). replace ((51/100 - 51/100) / (58/100 - 51/100)) with 0 by field. rewrite pw_0 by auto. reflexivity.
  - fold (pw g ((645/1000 - 58/100) / (645/1000 - 58/100))). replace ((645/1000 - 58/100) / (645/1000 - 58/100)) with 1 by field. rewrite pw_1. reflexivity.
  - rewrite Rmin_left by lra. match goal with |- context [pow_nn (Rabs ?x) g] => fold (pw g x); replace x with 1 by field end. rewrite pw_1. reflexivity.
Qed.
Lemma colour_interpolates : forall k a ca b cb s, nth_error anchors k = Some (a, ca) -> nth_error anchors (S k) = Some (b, cb) ->
  0 <= s <= 1 -> colour 1 ((1 - s) * a + s * b) = mix s ca cb.
Proof.
  intros k a ca b cb s A B S.
  assert (X : s < 1 \/ s = 1) by lra. destruct X as [X|X].
  2:{ subst s. replace ((1 - 1) * a + 1 * b) with b by ring. rewrite (colour_anchors 1 b cb); [|lra|eapply nth_error_In; eauto].
      destruct ca, cb; unfold mix; simpl. f_equal; ring. }
  rewrite <- (column_colour (RGB 0 0 0) 1 _ ltac:(lra)).
  unfold rgb_column, zone6, zone5, zone4, zone3, zone2, zone1. cbv zeta. unfold anchors in *.
  destruct k as [|[|[|[|k]]]]; [..|simpl in B; destruct k; discriminate].
  all: simpl in A, B; injection A as <- <-; injection B as <- <-; zones; unfold mix; cbn [red green blue].
  all: match goal with |- context [pow_nn (Rabs ?x) 1] => fold (pw 1 x) end.
  - replace (((1 - s) * (44/100) + s * (49/100) - 44/100) / (49/100 - 44/100)) with s by field. rewrite pw_one by lra. f_equal; ring.
  - replace ((51/100 - ((1 - s) * (49/100) + s * (51/100))) / (51/100 - 49/100)) with (1 - s) by field. rewrite pw_one by lra. f_equal; ring.
  - replace (((1 - s) * (51/100) + s * (58/100) - 51/100) / (58/100 - 51/100)) with s by field. rewrite pw_one by lra. f_equal; ring.
  - replace ((645/1000 - ((1 - s) * (58/100) + s * (645/1000))) / (645/1000 - 58/100)) with (1 - s) by field. rewrite pw_one by lra. f_equal; ring.
Qed.
Lemma rgb_array : forall junk g l, 0 < g -> wavelength_to_rgb junk (Array l) g = Some (map (colour g) l).
Proof.
  intros junk g l G. unfold wavelength_to_rgb. f_equal. generalize 0%nat.
  induction l as [|w l IH]; intros k; simpl; [reflexivity|]. rewrite column_colour, IH by auto. reflexivity.
Qed.
Lemma colour_map : exists colour : R -> R -> rgb, forall g, 0 < g ->
  (forall junk l, wavelength_to_rgb junk (Array l) g = Some (map (colour g) l)) /\
  (forall w, displayable (colour g w)) /\ continuous_colour (colour g) /\
  (forall w, w <= 38/100 -> colour g w = colour g (38/100)) /\
  (forall w, 75/100 <= w -> colour g w = colour g (75/100)) /\
  (forall w c, In (w, c) anchors -> colour g w = c) /\
  (forall k a ca b cb s, nth_error anchors k = Some (a, ca) -> nth_error anchors (S k) = Some (b, cb) ->
     0 <= s <= 1 -> g = 1 -> colour g ((1 - s) * a + s * b) = mix s ca cb).
Proof.
  exists colour. intros g G. split; [intros; apply rgb_array; auto|]. split; [intros; apply colour_displayable; auto|].
  split; [apply colour_continuous; auto|]. split; [apply colour_outside|]. split; [apply colour_outside|].
  split; [intros; apply colour_anchors; auto|]. intros. subst g. eapply colour_interpolates; eauto.
Qed.

(** ** Lensmaker *)
Lemma inf_sign_cases : forall x, inf_sign x = PInf \/ inf_sign x = MInf \/ (x = 0 /\ inf_sign x = NaN).
Proof. intros. unfold inf_sign. destruct (Rlt_dec 0 x); auto. destruct (Rlt_dec x 0); auto. right; right. split; auto; lra. Qed.
(** The value, from curvatures *)
Definition power (k1 k2 n d : R) : R := (n - 1) * (k1 - k2 + (n - 1) * d / n * (k1 * k2)).
Lemma pydiv_fin : forall x y, y <> 0 -> pydiv (Fin x) (Fin y) = Some (Fin (x / y)).
Proof. intros. unfold pydiv. destruct (Req_EM_T y 0); [contradiction|]. simpl. destruct (Req_EM_T y 0); [contradiction|]. reflexivity. Qed.
Lemma pydiv_curvature : forall r k, curvature r k -> pydiv (Fin 1) r = Some (Fin k).
Proof.
  intros [x| | |] k C; simpl in C; try tauto; try (subst k; reflexivity).
  destruct C as [N ->]. rewrite pydiv_fin by auto. f_equal. f_equal. field. auto.
Qed.
Definition infinite (x : xr) : Prop := x = PInf \/ x = MInf.
Definition nonzero (x : xr) : Prop := exists z, z <> 0 /\ x = Fin z.
Lemma xmul_infinite : forall x y, (infinite x /\ (infinite y \/ nonzero y)) \/ (nonzero x /\ infinite y) -> infinite (xmul x y).
Proof.
  intros x y [[[-> | ->] [[-> | ->]|[z [Z ->]]]]|[[z [Z ->]] [-> | ->]]]; simpl; unfold infinite; auto;
  destruct (inf_sign_cases z) as [E|[E|[E _]]]; auto; try contradiction; try (rewrite E; simpl; auto);
  destruct (inf_sign_cases (- z)) as [E'|[E'|[E' _]]]; auto; exfalso; lra.
Qed.
Lemma pydiv_infinite : forall a m, infinite m -> pydiv (Fin a) m = Some (Fin 0).
Proof. intros a m [-> | ->]; reflexivity. Qed.
Lemma pydiv_thick : forall r1 r2 n e k1 k2, curvature r1 k1 -> curvature r2 k2 -> n <> 0 ->
  pydiv (Fin e) (xmul (xmul (Fin n) r1) r2) = Some (Fin (e / n * (k1 * k2))).
Proof.
  intros r1 r2 n e k1 k2 C1 C2 N.
  assert (A : (infinite r1 /\ k1 = 0) \/ (exists x, r1 = Fin x /\ x <> 0 /\ k1 = / x)).
  { destruct r1 as [x| | |]; simpl in C1; unfold infinite; try tauto. right. exists x. tauto. }
  assert (B : (infinite r2 /\ k2 = 0) \/ (exists x, r2 = Fin x /\ x <> 0 /\ k2 = / x)).
  { destruct r2 as [x| | |]; simpl in C2; unfold infinite; try tauto. right. exists x. tauto. }
  assert (NN : nonzero (Fin n)) by (exists n; auto).
  destruct A as [[A ->]|[x [-> [X ->]]]].
  - rewrite pydiv_infinite; [f_equal; f_equal; field; auto|].
    apply xmul_infinite. left. split; [apply xmul_infinite; right; auto|].
    destruct B as [[B _]|[y [-> [Y _]]]]; [left; auto|right; exists y; auto].
  - destruct B as [[B ->]|[y [-> [Y ->]]]].
    + rewrite pydiv_infinite; [f_equal; f_equal; field; auto|]. apply xmul_infinite. right. split; auto.
      exists (n * x). split; [apply Rmult_integral_contrapositive; auto|reflexivity].
    + change (xmul (xmul (Fin n) (Fin x)) (Fin y)) with (Fin (n * x * y)). rewrite pydiv_fin; [f_equal; f_equal; field; auto|].
      apply Rmult_integral_contrapositive. split; auto.
Qed.
Lemma lensmaker_value : forall r1 r2 n d k1 k2, curvature r1 k1 -> curvature r2 k2 -> n <> 0 ->
  lensmakers_equation r1 r2 (Fin n) (Fin d) =
    if Req_EM_T (power k1 k2 n d) 0 then None else Some (Fin (/ power k1 k2 n d)).
Proof.
  intros r1 r2 n d k1 k2 C1 C2 N. unfold lensmakers_equation.
  rewrite (pydiv_curvature r1 k1 C1), (pydiv_curvature r2 k2 C2).
  change (xmul (xsub (Fin n) (Fin 1)) (Fin d)) with (Fin ((n - 1) * d)).
  rewrite (pydiv_thick r1 r2 n _ k1 k2 C1 C2 N). cbv zeta. simpl xsub. simpl xadd. simpl xmul.
  match goal with |- pydiv _ (Fin ?p) = _ => replace p with (power k1 k2 n d) by (unfold power; ring) end.
  destruct (Req_EM_T (power k1 k2 n d) 0) as [E|E].
  - rewrite E. unfold pydiv. destruct (Req_EM_T 0 0); [reflexivity|lra].
  - rewrite pydiv_fin by auto. f_equal. f_equal. field. auto.
Qed.
Lemma power_matrix : forall k1 k2 n d, n <> 0 -> mC (lens_matrix k1 k2 n d) = - power k1 k2 n d.
Proof. intros. unfold lens_matrix, cross, travel, m2_mul, power; simpl. field. auto. Qed.
Lemma lensmaker_paraxial : forall r1 r2 n d k1 k2, curvature r1 k1 -> curvature r2 k2 -> n <> 0 ->
  (mC (lens_matrix k1 k2 n d) <> 0 ->
     exists f, lensmakers_equation r1 r2 (Fin n) (Fin d) = Some (Fin f) /\ f * mC (lens_matrix k1 k2 n d) = -1) /\
  (mC (lens_matrix k1 k2 n d) = 0 -> lensmakers_equation r1 r2 (Fin n) (Fin d) = None).
Proof.
  intros r1 r2 n d k1 k2 C1 C2 N. rewrite (lensmaker_value r1 r2 n d k1 k2 C1 C2 N), power_matrix by auto. split; intros H.
  - destruct (Req_EM_T (power k1 k2 n d) 0); [lra|]. eexists. split; [reflexivity|]. field. auto.
  - destruct (Req_EM_T (power k1 k2 n d) 0); [auto|lra].
Qed.
Lemma curvature_opp : forall r k, curvature r k -> curvature (xopp r) (- k).
Proof. intros [x| | |] k; simpl; intros H; try tauto; try lra. destruct H as [N ->]. split; [lra|field; auto]. Qed.
Lemma lensmaker_turned : forall r1 r2 n d k1 k2, curvature r1 k1 -> curvature r2 k2 -> n <> 0 ->
  lensmakers_equation (xopp r2) (xopp r1) (Fin n) (Fin d) = lensmakers_equation r1 r2 (Fin n) (Fin d).
Proof.
  intros r1 r2 n d k1 k2 C1 C2 N. rewrite (lensmaker_value r1 r2 n d k1 k2 C1 C2 N).
  rewrite (lensmaker_value _ _ n d (- k2) (- k1) (curvature_opp _ _ C2) (curvature_opp _ _ C1) N).
  replace (power (- k2) (- k1) n d) with (power k1 k2 n d) by (unfold power; ring). reflexivity.
Qed.
Lemma lensmaker_plano : forall r n d, r <> 0 -> n <> 0 -> n <> 1 ->
  lensmakers_equation (Fin r) PInf (Fin n) (Fin d) = Some (Fin (r / (n - 1))).
Proof.
  intros r n d R0 N N1. rewrite (lensmaker_value (Fin r) PInf n d (/ r) 0); [|simpl; auto|simpl; auto|auto].
  assert (P : power (/ r) 0 n d = (n - 1) / r) by (unfold power; field; auto). rewrite P.
  destruct (Req_EM_T ((n - 1) / r) 0) as [E|E].
  - exfalso. unfold Rdiv in E. apply Rmult_integral in E. destruct E as [E|E]; [lra|]. apply Rinv_neq_0_compat in R0. lra.
  - f_equal. f_equal. field. split; lra.
Qed.

(** ** Dispersion *)
Definition term (b c w : R) : R := b * (w * w) / (w * w - c).
Definition catalogue (s : sellmeier) : Prop :=
  0 < b1 s /\ 0 < b2 s /\ 0 < b3 s /\ 0 < c1 s < 1/10 /\ 0 < c2 s < 1/10 /\ 100 < c3 s /\ b3 s < 1/2 * c3 s /\ 1 < b1 s /\ b3 s < 2.
Lemma sellmeier_fin : forall s w, w * w <> c1 s -> w * w <> c2 s -> w * w <> c3 s ->
  sellmeier_index s w = xsqrt (Fin (1 + term (b1 s) (c1 s) w + term (b2 s) (c2 s) w + term (b3 s) (c3 s) w)).
Proof.
  intros s w N1 N2 N3. unfold sellmeier_index, sellmeier_term, xdiv.
  destruct (Req_EM_T (w * w - c1 s) 0); [lra|]. destruct (Req_EM_T (w * w - c2 s) 0); [lra|].
  destruct (Req_EM_T (w * w - c3 s) 0); [lra|]. reflexivity.
Qed.
Lemma vis_sq : forall w, visible w -> 144/1000 <= w * w <= 563/1000.
Proof. intros w [L U]. split; nra. Qed.
Lemma term_pos : forall b c w, 1 < b -> 0 < c < 1/10 -> 144/1000 <= w * w -> 1 < term b c w.
Proof.
  intros b c w B C W. unfold term. apply (Rmult_lt_reg_r (w * w - c)); [lra|]. unfold Rdiv. rewrite Rmult_assoc, Rinv_l by lra. nra.
Qed.
Lemma term_pos0 : forall b c w, 0 < b -> 0 < c < 1/10 -> 144/1000 <= w * w -> 0 < term b c w.
Proof. intros b c w B C W. unfold term. apply Rdiv_lt_0_compat; nra. Qed.
Lemma term_small : forall b c w, 0 < b < 2 -> 100 < c -> 144/1000 <= w * w <= 563/1000 -> - (1/10) < term b c w < 0.
Proof.
  intros b c w B C W. unfold term. split.
  - apply (Rmult_lt_reg_r (c - w * w)); [lra|]. replace (b * (w * w) / (w * w - c) * (c - w * w)) with (- (b * (w * w))) by (field; lra). nra.
  - apply (Rmult_lt_reg_r (c - w * w)); [lra|]. replace (b * (w * w) / (w * w - c) * (c - w * w)) with (- (b * (w * w))) by (field; lra). nra.
Qed.
Lemma term_decreasing : forall b c w w', 0 < b -> 0 < c -> 0 < (w * w - c) * (w' * w' - c) -> w * w < w' * w' -> term b c w' < term b c w.
Proof.
  intros b c w w' B C S L. assert (N : w * w - c <> 0) by (intros E; rewrite E in S; lra).
  assert (N' : w' * w' - c <> 0) by (intros E; rewrite E in S; lra).
  assert (D : term b c w - term b c w' = b * c * (w' * w' - w * w) / ((w * w - c) * (w' * w' - c))).
  { unfold term. field. auto. }
  assert (0 < b * c * (w' * w' - w * w) / ((w * w - c) * (w' * w' - c))).
  { apply Rdiv_lt_0_compat; auto. apply Rmult_lt_0_compat; [nra|lra]. }
  lra.
Qed.
Definition under (s : sellmeier) (w : R) : R := 1 + term (b1 s) (c1 s) w + term (b2 s) (c2 s) w + term (b3 s) (c3 s) w.
Lemma catalogue_index : forall s w, catalogue s -> visible w ->
  sellmeier_index s w = Fin (sqrt (under s w)) /\ 18/10 < under s w.
Proof.
  intros s w [B1 [B2 [B3 [C1 [C2 [C3 [_ [B11 B32]]]]]]]] V. apply vis_sq in V.
  assert (T1 := term_pos (b1 s) (c1 s) w B11 C1 (proj1 V)).
  assert (T2 := term_pos0 (b2 s) (c2 s) w B2 C2 (proj1 V)).
  assert (T3 := term_small (b3 s) (c3 s) w ltac:(lra) C3 V).
  assert (P : 18/10 < under s w) by (unfold under; lra). split; auto.
  rewrite sellmeier_fin by lra. fold (under s w). unfold xsqrt. destruct (Rle_dec 0 (under s w)); [reflexivity|lra].
Qed.
Lemma catalogue_decreasing : forall s w w', catalogue s -> visible w -> visible w' -> w < w' -> under s w' < under s w.
Proof.
  intros s w w' [B1 [B2 [B3 [C1 [C2 [C3 _]]]]]] V V' L. assert (Q : w * w < w' * w') by (unfold visible in *; nra).
  apply vis_sq in V. apply vis_sq in V'. unfold under.
  assert (term (b1 s) (c1 s) w' < term (b1 s) (c1 s) w) by (apply term_decreasing; try lra; nra).
  assert (term (b2 s) (c2 s) w' < term (b2 s) (c2 s) w) by (apply term_decreasing; try lra; nra).
  assert (term (b3 s) (c3 s) w' < term (b3 s) (c3 s) w) by (apply term_decreasing; try lra; nra).
  lra.
Qed.
Lemma bk7_ok : catalogue bk7. Proof. unfold catalogue, bk7; simpl; lra. Qed.
Lemma sf5_ok : catalogue sf5. Proof. unfold catalogue, sf5; simpl; lra. Qed.
Lemma sf2_ok : catalogue sf2. Proof. unfold catalogue, sf2; simpl; lra. Qed.
Lemma sellmeier_law : forall s w, w * w <> c1 s -> w * w <> c2 s -> w * w <> c3 s ->
  forall n, sellmeier_index s w = Fin n ->
  0 <= n /\ n * n = 1 + b1 s * (w * w) / (w * w - c1 s) + b2 s * (w * w) / (w * w - c2 s) + b3 s * (w * w) / (w * w - c3 s).
Proof.
  intros s w N1 N2 N3 n E. rewrite sellmeier_fin in E by auto. unfold xsqrt in E.
  destruct (Rle_dec 0 _) as [P|] in E; [|discriminate]. injection E as <-. split; [apply sqrt_pos|]. apply sqrt_sqrt, P.
Qed.
Lemma catalogue_visible : forall g w, visible w -> exists n, glass g w = Fin n /\ 1 < n.
Proof.
  assert (S : forall s w, catalogue s -> visible w -> exists n, sellmeier_index s w = Fin n /\ 1 < n).
  { intros s w C V. destruct (catalogue_index s w C V) as [E P]. eexists. split; [exact E|].
    rewrite <- sqrt_1. apply sqrt_lt_1; lra. }
  intros [| | |] w V; simpl.
  - exists (15/10). split; [reflexivity|lra].
  - apply S; auto. apply bk7_ok.
  - apply S; auto. apply sf5_ok.
  - apply S; auto. apply sf2_ok.
Qed.
Lemma normal_dispersion : forall g w w' n n', g <> Ideal -> visible w -> visible w' -> w < w' ->
  glass g w = Fin n -> glass g w' = Fin n' -> n' < n.
Proof.
  assert (S : forall s w w' n n', catalogue s -> visible w -> visible w' -> w < w' ->
    sellmeier_index s w = Fin n -> sellmeier_index s w' = Fin n' -> n' < n).
  { intros s w w' n n' C V V' L E E'. destruct (catalogue_index s w C V) as [F P]. destruct (catalogue_index s w' C V') as [F' P'].
    rewrite F in E. rewrite F' in E'. injection E as <-. injection E' as <-. apply sqrt_lt_1; try lra. apply catalogue_decreasing; auto. }
  intros [| | |] w w' n n' I; simpl; [congruence| | |]; apply S; auto using bk7_ok, sf5_ok, sf2_ok.
Qed.
Lemma abbe_number : forall g, g <> Ideal -> exists nd nf nc,
  glass g (5893/10000) = Fin nd /\ glass g (4861/10000) = Fin nf /\ glass g (6563/10000) = Fin nc /\
  nc < nf /\ abbe (glass g) = Fin ((nd - 1) / (nf - nc)).
Proof.
  intros g I. assert (V1 : visible (5893/10000)) by (unfold visible; lra).
  assert (V2 : visible (4861/10000)) by (unfold visible; lra). assert (V3 : visible (6563/10000)) by (unfold visible; lra).
  destruct (catalogue_visible g _ V1) as [n1 [E1 P1]]. destruct (catalogue_visible g _ V2) as [n2 [E2 P2]].
  destruct (catalogue_visible g _ V3) as [n3 [E3 P3]].
  assert (L : n3 < n2) by (apply (normal_dispersion g _ _ _ _ I V2 V3 ltac:(lra) E2 E3)).
  exists n1, n2, n3. repeat split; auto.
  unfold abbe. rewrite E1, E2, E3. simpl. destruct (Req_EM_T (n2 + - n3) 0); [lra|]. reflexivity.
Qed.
Lemma catalogue_optical : forall g, optical visible (glass_material g).
Proof.
  intros g. unfold glass_material, optical. intros w V. destruct (catalogue_visible g w V) as [n [E P]]. exists n. split; [exact E|lra].
Qed.
Lemma index_near : forall s w a b, catalogue s -> visible w -> 0 <= a -> 0 <= b ->
  a * a < 1 + b1 s * (w*w) / (w*w - c1 s) + b2 s * (w*w) / (w*w - c2 s) + b3 s * (w*w) / (w*w - c3 s) < b * b ->
  exists n, sellmeier_index s w = Fin n /\ a < n < b.
Proof.
  intros s w a b C V A B [L U]. destruct (catalogue_index s w C V) as [E P]. eexists. split; [exact E|].
  unfold under, term in *. split.
  - rewrite <- (sqrt_square a A). apply sqrt_lt_1; nra.
  - rewrite <- (sqrt_square b B). apply sqrt_lt_1; nra.
Qed.
