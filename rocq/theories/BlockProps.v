(** * BlockProps: what blocks of glass do to rays *)
From Coq Require Import Reals Lra Lia List Bool ZArith Psatz.
Import ListNotations.
From Verif Require Import XR XRFacts Arr Lin LinFacts Ops OpsFacts SpecOptics Prim Csg Surf SpecGeom SpecTree SpecNormal CsgProps SurfFacts TreeFacts World SpecWorld Tracer SpecTrace
  PrimFacts2 TraceFacts3 TraceFacts5 TraceFacts6 TraceFacts7 TraceProps MirrorTrace SpecImages ImageFacts ImageFacts2 ImageFacts3 Components SpecComponents BuildFacts
  ComponentFacts ComponentFacts2 ComponentFacts3 SpecEdges SpecMotion MotionFacts MirrorFacts2 PrismLaw PrismFacts PrismProps SpecRod RodFacts RodProps SpecBlock.
Open Scope R_scope.

Lemma axis_dec : forall a b : axis, {a = b} + {a <> b}.
Proof. decide equality. Qed.
Lemma arrow_w : forall a, vw (arrow a) = 0.
Proof. intros []; reflexivity. Qed.
Lemma arrow_dot : forall a b, vdot (arrow a) (arrow b) = if axis_dec a b then 1 else 0.
Proof. intros a b. destruct (axis_dec a b) as [->|N]; [destruct b|destruct a, b; try congruence]; unfold vdot; cbn; ring. Qed.
Lemma coord_arrow : forall a v, vw v = 0 -> vdot v (arrow a) = coord a v.
Proof. intros [] [x y z w] W; cbn in W; subst; unfold vdot; cbn; ring. Qed.

Section Block.
  Variables (surfaces : list surf) (f : surf) (low high : axis -> R).
  Hypothesis (ND : NoDup (map s_id surfaces)) (IN : In f surfaces) (IV : is_inverse (s_world f) (s_obj f)) (BL : block f low high).

  Lemma parts_sum : forall w, unit (row_tilt w) -> vw (row_tilt w) = 0 ->
    part f AlongX w * part f AlongX w + part f AlongY w * part f AlongY w + part f AlongZ w * part f AlongZ w = 1.
  Proof using IV BL.
    intros w U W. destruct BL as (_ & _ & ISO & _). assert (AO : affine (s_obj f)) by (eapply affine_inverse; eauto; apply ISO). destruct ISO as (AF & _ & IS).
    assert (WQ : vw (mapply (s_obj f) (row_tilt w)) = 0) by (rewrite affine_w; auto). pose proof (inverse_apply_r _ _ (row_tilt w) IV) as QE.
    unfold part. rewrite <- QE. rewrite !IS by (auto; apply arrow_w). rewrite !coord_arrow by auto. unfold unit in U. rewrite <- QE, IS in U by auto.
    unfold vdot in U. rewrite WQ in U. cbn [coord]. lra.
  Qed.
  Definition sense (a : axis) (w : row) : R := if Req_EM_T (place f a w) (high a) then 1 else -1.
  Lemma sense_one : forall a w, sense a w * sense a w = 1.
  Proof using Type. intros. unfold sense. destruct (Req_EM_T _ _); lra. Qed.
  Lemma face_normal : forall a w, ends_on_pair f low high a w -> world_normal f (here (row_end w)) = Some (vscale (sense a w) (mapply (s_world f) (arrow a))).
  Proof using IV BL.
    intros a w (SU & ON & AWAY). destruct BL as (LH & EP & ISO & NS). assert (AF : affine (s_world f)) by apply ISO. assert (AO : affine (s_obj f)) by (eapply affine_inverse; eauto).
    pose proof (inverse_apply_r _ _ (here (row_end w)) IV) as QE. unfold sense. unfold place in *. destruct (mapply (s_obj f) (here (row_end w))) as [q1 q2 q3 q4] eqn:EQ.
    set (s := if Req_EM_T (coord a (V4 q1 q2 q3 q4)) (high a) then 1 else -1) in *.
    assert (AX : forall b, cube_normal_axis (Rmin (low b) (high b)) (Rmax (low b) (high b)) (coord b (V4 q1 q2 q3 q4)) = if axis_dec a b then s else 0).
    { intro b. destruct (LH b) as (L1 & L2). rewrite Rmin_left, Rmax_right by lra. unfold cube_normal_axis. destruct (axis_dec a b) as [<-|NE].
      - unfold s. destruct (Req_EM_T (coord a (V4 q1 q2 q3 q4)) (high a)) as [->|NH]; [rewrite near_self; reflexivity|].
        destruct ON as [->|E]; [|contradiction]. rewrite (not_near _ _ L2), near_self. reflexivity.
      - destruct (AWAY b ltac:(congruence)) as (N1 & N2). rewrite (not_near _ _ N1), (not_near _ _ N2). reflexivity. }
    assert (SS : s * s = 1) by (unfold s; destruct (Req_EM_T _ _); lra).
    assert (UN : unit (vscale s (arrow a))) by (unfold unit; rewrite vdot_scale_l, vdot_scale_r, arrow_dot; destruct (axis_dec a a); [lra|congruence]).
    assert (PN : prim_normal (s_prim f) (V4 q1 q2 q3 q4) = Some (vscale s (arrow a))).
    { rewrite EP. cbn [prim_normal]. unfold cube_normal. pose proof (AX AlongX) as A1. pose proof (AX AlongY) as A2. pose proof (AX AlongZ) as A3. cbn [coord] in A1, A2, A3. rewrite A1, A2, A3.
      replace (V4 _ _ _ 0) with (vscale s (arrow a)); [apply vnormalize_unit; exact UN|].
      destruct a; repeat match goal with |- context [axis_dec ?x ?y] => destruct (axis_dec x y); try congruence end; unfold vscale; cbn; f_equal; ring. }
    pose proof (placed_normal f _ 1 _ NS ISO IV PN UN ltac:(unfold vscale; cbn [vw]; rewrite arrow_w; ring)) as WN. rewrite QE in WN. rewrite WN, mapply_scale, vscale_1. reflexivity.
  Qed.
  Lemma face_step : forall a w w' idx n, ends_on_pair f low high a w -> s_mat f = Refractor idx -> idx (row_wl w) = Fin n -> SpecTrace.bounce surfaces w w' -> unit (row_tilt w) -> vw (row_tilt w) = 0 ->
    exists s, 0 <= s /\ s * s = 1 - part f a w * part f a w /\ let k := if Rlt_dec 0 (sense a w * part f a w) then 1 else n in
    (row_idx w * s < k -> row_idx w' = k /\ forall b, b <> a -> row_idx w * part f b w = k * part f b w') /\
    (k <= row_idx w * s -> row_idx w' = row_idx w /\ forall b, part f b w' * part f b w' = part f b w * part f b w).
  Proof using ND IN IV BL.
    intros a w w' idx n ES MA IX BO U W. pose proof (face_normal a w ES) as WN. set (N := vscale (sense a w) (mapply (s_world f) (arrow a))) in *.
    destruct (bounce_at _ f w w' N idx ND IN (proj1 ES) WN MA BO) as (UN & n2 & X2 & RF & TI). rewrite IX in X2. injection X2 as <-.
    assert (DN : vdot (row_tilt w) N = sense a w * part f a w) by (unfold N; rewrite vdot_scale_r; reflexivity). cbv zeta in RF, TI. unfold next_index, world_index in RF, TI. rewrite DN in RF, TI.
    destruct BL as (_ & _ & (_ & _ & IS) & _).
    assert (NB : forall b, vdot N (mapply (s_world f) (arrow b)) = if axis_dec a b then sense a w else 0).
    { intro b. unfold N. rewrite vdot_scale_l, IS by apply arrow_w. rewrite arrow_dot. destruct (axis_dec a b); ring. }
    assert (TP : forall v b, vdot (tangential v N) (mapply (s_world f) (arrow b)) = vdot v (mapply (s_world f) (arrow b)) - vdot v N * (if axis_dec a b then sense a w else 0)).
    { intros v b. unfold tangential. rewrite vdot_sub_l, vdot_scale_l, NB. reflexivity. }
    exists (vnorm (tangential (row_tilt w) N)). split; [apply sqrt_pos|]. split.
    { rewrite (sine_sq _ _ U UN), DN. pose proof (sense_one a w). set (p := part f a w). set (q := sense a w) in *. clearbody p q. replace (q * p * (q * p)) with (q * q * (p * p)) by ring. rewrite H. ring. }
    cbv zeta. split.
    - intro LT. destruct (RF LT) as (X1 & SN & _). split; [exact X1|]. intros b NE.
      assert (E : vdot (vscale (row_idx w) (tangential (row_tilt w) N)) (mapply (s_world f) (arrow b)) = vdot (vscale (if Rlt_dec 0 (sense a w * part f a w) then 1 else n) (tangential (row_tilt w') N)) (mapply (s_world f) (arrow b))) by (rewrite SN; reflexivity).
      rewrite !vdot_scale_l, !TP in E. destruct (axis_dec a b) as [X|_]; [congruence|]. unfold part in *. lra.
    - intro GE. destruct (TI GE) as (X1 & (M1 & M2)). split; [exact X1|]. intro b.
      assert (E : vdot (tangential (row_tilt w') N) (mapply (s_world f) (arrow b)) = vdot (tangential (row_tilt w) N) (mapply (s_world f) (arrow b))) by (rewrite M2; reflexivity).
      rewrite !TP, M1, DN in E. fold (part f b w') (part f b w) in E. destruct (axis_dec a b) as [<-|_].
      + pose proof (sense_one a w). set (p := part f a w) in *. set (q := sense a w) in *. set (p' := part f a w') in *. clearbody p q p'.
        assert (E' : p' = p - 2 * (q * q) * p) by lra. rewrite H in E'. rewrite E'. ring.
      + replace (part f b w') with (part f b w) by lra. reflexivity.
  Qed.
  Lemma sense_in : forall a w, enters f low high a w -> sense a w * part f a w < 0.
  Proof using BL. intros a w (_ & H). unfold sense. destruct BL as (LH & _). destruct (LH a). destruct H as [(E & P)|(E & P)]; rewrite E; destruct (Req_EM_T _ _); lra. Qed.
  Lemma sense_out : forall a w, leaves f low high a w <-> ends_on_pair f low high a w /\ 0 < sense a w * part f a w.
  Proof using BL.
    intros a w. destruct BL as (LH & _). destruct (LH a). unfold leaves, sense. split.
    - intros (E & H'). split; [exact E|]. destruct H' as [(X & P)|(X & P)]; rewrite X; destruct (Req_EM_T _ _); lra.
    - intros (E & P). split; [exact E|]. destruct E as (_ & ON & _). destruct (Req_EM_T _ _); [right|left]; split; auto; try lra; destruct ON; auto; contradiction.
  Qed.
End Block.

Ltac sums := repeat match goal with H : context [axis_dec ?x ?y] |- _ => destruct (axis_dec x y); try congruence end.

Theorem blocks_pass : forall asort, argsort_ok asort -> forall gen h t comps fuel t', proper gen h t comps -> trace asort h gen fuel t = TOk t' ->
  forall f low high idx n a i before w0 ws u after, rows_with_id i (f_rows (get_results t')) = before ++ (w0 :: ws ++ [u]) ++ after ->
  In f (flat_map surface_ids comps) -> block f low high -> s_mat f = Refractor idx -> idx (row_wl w0) = Fin n -> 0 < n -> 2 <= n * n ->
  enters f low high a w0 -> row_idx w0 = 1 -> Forall (fun w => row_idx w = n /\ exists b, ends_on_pair f low high b w) ws ->
  (row_idx u = n /\ (forall b, b <> a -> n * n * (part f b u * part f b u) = part f b w0 * part f b w0) /\ (forall ws' v, ws = ws' ++ [v] -> ~ leaves f low high a v) \/
   row_idx u = 1 /\ (forall b, part f b u * part f b u = part f b w0 * part f b w0) /\ exists ws' v, ws = ws' ++ [v] /\ leaves f low high a v).
Proof.
  intros asort AS gen h t comps fuel t' PR TR f low high idx n a i before w0 ws u after R IN BL MA IX NP N2 EN I0 ES.
  pose proof PR as ((_ & _ & ND) & _ & _ & _ & PO). destruct (PO f IN) as (_ & _ & IV & _).
  destruct (proper_bounces asort AS _ _ _ _ _ _ PR TR i _ eq_refl) as (_ & BO & _). destruct (proper_legs asort AS _ _ _ _ _ _ PR TR) as (LG & _).
  assert (K : forall j w, nth_error (rows_with_id i (f_rows (get_results t'))) j = Some w -> In w (f_rows (get_results t')) /\ row_id w = i) by (intros j w E; apply nth_error_In, in_rows_with_id in E; exact E).
  assert (SEQ : forall j w, nth_error (w0 :: ws ++ [u]) j = Some w -> nth_error (rows_with_id i (f_rows (get_results t'))) (length before + j) = Some w) by (intros j w E; rewrite R; apply rows_seg; exact E).
  assert (LL : forall j w, nth_error (w0 :: ws ++ [u]) j = Some w -> unit (row_tilt w) /\ vw (row_tilt w) = 0 /\ row_wl w = row_wl w0).
  { intros j w E. destruct (K _ _ (SEQ _ _ E)) as (W & ID). destruct (K _ _ (SEQ 0%nat w0 eq_refl)) as (W' & ID'). destruct (LG w W) as (U & D & _). split; [exact U|]. split; [exact D|].
    destruct (fields_carried _ _ _ _ _ _ TR w W) as (c1 & C1 & X1 & _). destruct (fields_carried _ _ _ _ _ _ TR w0 W') as (c2 & C2 & X2 & _). rewrite ID in C1. rewrite ID', C1 in C2. injection C2 as <-. congruence. }
  assert (NX : forall j w w', nth_error (w0 :: ws ++ [u]) j = Some w -> nth_error (w0 :: ws ++ [u]) (S j) = Some w' -> SpecTrace.bounce (flat_map surface_ids comps) w w').
  { intros j w w' E E'. apply SEQ in E. apply SEQ in E'. replace (length before + S j)%nat with (S (length before + j)) in E' by lia. apply (BO _ _ _ E E'). }
  destruct (LL 0%nat w0 eq_refl) as (U0 & D0 & _). pose proof (parts_sum f low high IV BL w0 U0 D0) as P0. pose proof (sense_in f low high BL a w0 EN) as SI.
  assert (A0 : 0 < part f a w0 * part f a w0) by (assert (part f a w0 <> 0) by (intro Z; rewrite Z in SI; lra); nra).
  assert (B0 : forall b, b <> a -> part f b w0 * part f b w0 < 1).
  { intros b NE. pose proof (Rle_0_sqr (part f AlongX w0)). pose proof (Rle_0_sqr (part f AlongY w0)). pose proof (Rle_0_sqr (part f AlongZ w0)). unfold Rsqr in *. destruct a, b; try congruence; lra. }
  set (inside := fun w => row_idx w = n /\ forall b, b <> a -> n * n * (part f b w * part f b w) = part f b w0 * part f b w0).
  (* the first step *)
  assert (FIRST : forall w', nth_error (w0 :: ws ++ [u]) 1 = Some w' -> inside w').
  { intros w' J1. destruct (face_step _ f low high ND IN IV BL a w0 w' idx n (proj1 EN) MA IX (NX 0%nat w0 w' eq_refl J1) U0 D0) as (s & SP & SS & RF & _). cbv zeta in RF.
    destruct (Rlt_dec 0 (sense f high a w0 * part f a w0)) as [Y|_]; [lra|]. rewrite I0 in RF. destruct RF as (X1 & Q); [nra|]. split; [exact X1|]. intros b NE. specialize (Q b NE). nra. }
  (* further steps *)
  assert (STEP : forall j w w', nth_error (w0 :: ws ++ [u]) j = Some w -> nth_error (w0 :: ws ++ [u]) (S j) = Some w' -> inside w -> forall b, ends_on_pair f low high b w ->
    inside w' /\ ~ leaves f low high a w \/ row_idx w' = 1 /\ (forall b, part f b w' * part f b w' = part f b w0 * part f b w0) /\ leaves f low high a w).
  { intros j w w' E E' (IW & PW) b EB. destruct (LL _ _ E) as (UW & DW & WLW). destruct (LL _ _ E') as (UW' & DW' & _).
    pose proof (parts_sum f low high IV BL w UW DW) as P1. pose proof (parts_sum f low high IV BL w' UW' DW') as P2.
    destruct (face_step _ f low high ND IN IV BL b w w' idx n EB MA ltac:(congruence) (NX _ _ _ E E') UW DW) as (s & SP & SS & RF & TI). cbv zeta in RF, TI. rewrite IW in RF, TI.
    pose proof (sense_out f low high BL b w) as SO.
    assert (PA : n * n * (1 - part f a w * part f a w) = 1 - part f a w0 * part f a w0).
    { destruct a; [pose proof (PW AlongY ltac:(discriminate)); pose proof (PW AlongZ ltac:(discriminate))|pose proof (PW AlongX ltac:(discriminate)); pose proof (PW AlongZ ltac:(discriminate))|pose proof (PW AlongX ltac:(discriminate)); pose proof (PW AlongY ltac:(discriminate))]; nra. }
    assert (ONE : forall c, leaves f low high c w -> c = b).
    { intros c (( _ & O1 & _) & _). destruct EB as (_ & _ & AW). destruct (axis_dec c b) as [|NE]; auto. destruct (AW c NE) as (X1 & X2).
      destruct O1 as [O1|O1]; rewrite O1 in X1, X2; [elim X1|elim X2]; apply near_isclose, near_self. }
    destruct (Rlt_dec 0 (sense f high b w * part f b w)) as [OUT|INW].
    - (* from inside *)
      assert (LB : leaves f low high b w) by (apply SO; auto).
      destruct (axis_dec b a) as [->|NE].
      + right. assert (LT : n * s < 1) by (assert (n * s * (n * s) < 1) by (replace (n * s * (n * s)) with (n * n * (s * s)) by ring; rewrite SS; lra); assert (0 <= n * s) by nra; nra).
        destruct (RF LT) as (X1 & Q). split; [exact X1|]. split; [|exact LB].
        assert (QQ : forall c, c <> a -> part f c w' * part f c w' = part f c w0 * part f c w0) by (intros c NE; rewrite <- (PW c NE); pose proof (Q c NE); nra).
        intro c. destruct (axis_dec c a) as [->|NE]; [|auto].
        destruct a; [pose proof (QQ AlongY ltac:(discriminate)); pose proof (QQ AlongZ ltac:(discriminate))|pose proof (QQ AlongX ltac:(discriminate)); pose proof (QQ AlongZ ltac:(discriminate))|pose proof (QQ AlongX ltac:(discriminate)); pose proof (QQ AlongY ltac:(discriminate))]; lra.
      + left. assert (GE : 1 <= n * s).
        { pose proof (B0 b NE). rewrite <- (PW b NE) in H. assert (1 <= n * s * (n * s)) by (replace (n * s * (n * s)) with (n * n * (s * s)) by ring; rewrite SS; lra). assert (0 <= n * s) by nra. nra. }
        destruct (TI GE) as (X1 & Q). split; [split; [exact X1|intros c NC; rewrite Q; auto]|]. intro LA. apply NE. symmetry. apply ONE. exact LA.
    - (* already on the way in *)
      left. split.
      + destruct (Rlt_le_dec (n * s) n) as [LT|GE].
        * destruct (RF LT) as (X1 & Q). split; [exact X1|].
          assert (QQ : forall c, c <> b -> part f c w' * part f c w' = part f c w * part f c w) by (intros c NC; pose proof (Q c NC) as Y; apply Rmult_eq_reg_l in Y; [rewrite Y; reflexivity|lra]).
          intros c NC. rewrite <- (PW c NC). f_equal. destruct (axis_dec c b) as [->|NE]; [|auto].
          destruct b; [pose proof (QQ AlongY ltac:(discriminate)); pose proof (QQ AlongZ ltac:(discriminate))|pose proof (QQ AlongX ltac:(discriminate)); pose proof (QQ AlongZ ltac:(discriminate))|pose proof (QQ AlongX ltac:(discriminate)); pose proof (QQ AlongY ltac:(discriminate))]; lra.
        * destruct (TI GE) as (X1 & Q). split; [exact X1|]. intros c NC. rewrite Q. auto.
      + intro LA. pose proof (ONE a LA). subst b. apply SO in LA. destruct LA. contradiction. }
  (* along the list *)
  rewrite Forall_forall in ES.
  assert (ALL : forall j w, (j < length ws)%nat -> nth_error (w0 :: ws ++ [u]) (S j) = Some w -> inside w).
  { intro j. induction j as [|j IH]; intros w LT E; [apply FIRST; exact E|].
    destruct (nth_error (w0 :: ws ++ [u]) (S j)) as [v|] eqn:EV; [|apply nth_error_None in EV; cbn in EV; rewrite app_length in EV; cbn in EV; lia].
    assert (IV' : inside v) by (apply IH; auto; lia). assert (IW : In w ws) by (cbn [nth_error] in E; change (nth_error (ws ++ [u]) (S j) = Some w) in E; rewrite nth_error_app1 in E by lia; eapply nth_error_In; eauto).
    assert (IVs : In v ws) by (change (nth_error (ws ++ [u]) j = Some v) in EV; rewrite nth_error_app1 in EV by lia; eapply nth_error_In; eauto).
    destruct (ES v IVs) as (_ & b & EB). destruct (ES w IW) as (XW & _).
    destruct (STEP _ _ _ EV E IV' b EB) as [(X & _)|(X1 & X2 & _)]; [exact X|].
    exfalso. rewrite XW in X1. rewrite X1 in N2. lra. }
  destruct ws as [|x ws0] eqn:EW.
  - left. destruct (FIRST u eq_refl) as (X1 & X2). split; [exact X1|]. split; [exact X2|]. intros ws' v X. destruct ws'; discriminate.
  - rewrite <- EW in *. destruct (exists_last (l := ws)) as (ws' & v & EL); [rewrite EW; discriminate|].
    assert (LN : length ws = S (length ws')) by (rewrite EL, app_length; cbn; lia).
    assert (JV : nth_error (w0 :: ws ++ [u]) (S (length ws')) = Some v) by (change (nth_error (ws ++ [u]) (length ws') = Some v); rewrite EL, <- app_assoc, nth_error_app2 by lia; rewrite Nat.sub_diag; reflexivity).
    assert (JU : nth_error (w0 :: ws ++ [u]) (S (S (length ws'))) = Some u) by (change (nth_error (ws ++ [u]) (S (length ws')) = Some u); rewrite nth_error_app2 by lia; rewrite LN, Nat.sub_diag; reflexivity).
    assert (IV' : inside v) by (apply (ALL (length ws')); auto; lia). destruct (ES v) as (_ & b & EB); [rewrite EL; apply in_or_app; right; left; reflexivity|].
    destruct (STEP _ _ _ JV JU IV' b EB) as [((X1 & X2) & NL)|(X1 & X2 & LV)].
    + left. split; [exact X1|]. split; [exact X2|]. intros ws'' v' X. rewrite EL in X. apply app_inj_tail in X. destruct X as (_ & <-). exact NL.
    + right. split; [exact X1|]. split; [exact X2|]. exists ws', v. auto.
Qed.
