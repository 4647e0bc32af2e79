(** * LensAxis2: both faces of a thick lens, refraction, and the first hit in front of a screen *)
From Coq Require Import Reals Lra Lia List Bool ZArith Psatz.
Import ListNotations.
From Verif Require Import XR XRFacts Arr Lin LinFacts Ops OpsFacts SpecOptics Prim Csg Surf SpecGeom SpecTree CsgProps SpanFacts BoxFacts TreeFacts
  World SpecWorld WorldFacts3 Tracer SpecTrace Components SpecComponents BuildFacts ComponentFacts ComponentOptics SymmetryComponents Chords Paraxial AxisRays LensAxis SpecGauss.
Open Scope R_scope.

Lemma side_depth_range : forall r h, 0 < h -> r <> 0 -> h <= Rabs r -> 0 < side_depth r h < 2 * Rabs r.
Proof.
  intros r h H N L. unfold side_depth. pose proof (sqrt_pos (Rabs r * Rabs r - h * h)) as S. pose proof (Rabs_pos_lt _ N).
  split; [|lra]. assert (sqrt (Rabs r * Rabs r - h * h) < sqrt (Rabs r * Rabs r)) as Q by (apply sqrt_lt_1; nra). rewrite sqrt_square in Q by lra. lra.
Qed.
Section Faces.
  Variable asort : list xr -> list nat.
  Hypothesis AS : argsort_ok asort.
  Variables ey ez : R.
  Hypothesis EU : ey * ey + ez * ez = 1.
  Variable m : material.
  Variables X Y DX DY : R -> R.
  Variables x h u : R.
  Hypothesis P : paraxial X Y DX DY x h u.

  Lemma placed_faces : forall s q r1 r2 t ap p, ap_ok ap -> rim_clear ap -> lens_fits r1 r2 t (reach ap) ->
    create_aperture ap (t + front_depth r1 (reach ap) + back_depth r2 (reach ap)) = Some p ->
    tree_ok s -> boxes_current s -> erase s = placed_erased r1 r2 m p (q - t / 2) (q + t / 2) (q + (back_depth r2 (reach ap) - front_depth r1 (reach ap)) / 2) ->
    let Tf := ftime X Y DX DY r1 (q - t / 2) in let Tb := ftime X Y DX DY r2 (q + t / 2) in
    ev (fun y => spans_face asort ey ez m X Y DX DY s y
      (Tf y) (fnorm ey ez (-1) r1 (q - t / 2) (pat X DX (Tf y) y) (hat_ Y DY (Tf y) y))
      (Tb y) (fnorm ey ez 1 r2 (q + t / 2) (pat X DX (Tb y) y) (hat_ Y DY (Tb y) y))).
  Proof.
    intros s q r1 r2 t ap p A CL (R1 & R2 & T & F1 & F2) EP TO BC ER Tf Tb. pose proof (reach_pos ap A) as RP.
    set (D1 := front_depth r1 (reach ap)) in *. set (D2 := back_depth r2 (reach ap)) in *. set (pf := q - t / 2) in *. set (pb := q + t / 2) in *. set (c := q + (D2 - D1) / 2) in *. set (th := t + D1 + D2) in *.
    assert (P1 : 0 <= D1) by (apply front_depth_pos; [lra|exact R1]). assert (P2 : 0 <= D2) by (apply back_depth_pos; [lra|exact R2]).
    assert (V2 : forall r, r1 = Fin r -> 0 < r -> pb + D2 < 2 * r + pf).
    { intros r E G. pose proof (F1 r E G 0 ltac:(nra)) as Q0. pose proof (F1 r E G (reach ap * reach ap) ltac:(nra)) as Q1. unfold D2, pf, pb.
      destruct r2 as [r2| | |]; cbn [back_depth]; [|unfold lens_back, sag in *; lra..]. destruct R2 as (N2 & L2). destruct (rltb 0 r2) eqn:E2.
      - unfold lens_back, sag in Q1. rewrite E2 in Q1. apply rltb_true in E2. unfold side_depth. rewrite abs_sq, (Rabs_right r2) by lra. lra.
      - unfold lens_back, sag in Q0. rewrite E2 in Q0. apply rltb_false in E2. rewrite Rminus_0_r in Q0. change (r2 * r2) with (Rsqr r2) in Q0. rewrite sqrt_Rsqr_abs, Rabs_left in Q0 by lra. lra. }
    assert (PB : pb = pf + t) by (unfold pf, pb; field).
    assert (NR1 : r1 <> NaN) by (destruct r1; [discriminate..|destruct R1]). 
    assert (Z1 : forall z, r1 = Fin z -> z <> 0) by (intros z ->; apply R1).
    assert (ST1 : forall s1, tree_ok s1 -> boxes_current s1 -> erase s1 = turned_side (fun r => rltb 0 r) r1 (fun r => r + pf) m (TLeaf p m (tw 0 0 c) 1) ->
      core_box pf pb (shape_box s1) /\ ev (fun y => spans_face asort ey ez m X Y DX DY s1 y (Tf y) (fnorm ey ez (-1) r1 pf (pat X DX (Tf y) y) (hat_ Y DY (Tf y) y))
        (plane_time X DX (pb + D2) y) (V4 1 0 0 0))).
    { intros s1 TO1 BC1 E1.
      assert (ST0 : forall s0, tree_ok s0 -> boxes_current s0 -> erase s0 = TLeaf p m (tw 0 0 c) 1 ->
        core_box pf pb (shape_box s0) /\ ev (fun y => spans_face asort ey ez m X Y DX DY s0 y (plane_time X DX (pf - D1) y) (V4 (-1) 0 0 0) (plane_time X DX (pb + D2) y) (V4 1 0 0 0))).
      { intros s0 TO0 BC0 E0. destruct (erase_leaf _ _ _ _ _ _ _ E0 TO0) as (f & bx & -> & TS & OK). split.
        - cbn [shape_box boxes_current] in *. rewrite BC0. destruct TS as (-> & _). cbn [erase] in E0. injection E0 as _ _ EW _. rewrite EW.
          replace (tw 0 0 c) with (turned_at c) by (unfold turned_at; rewrite tw_eq; reflexivity).
          apply (aperture_core ap th p c pf pb A EP); unfold th, c, pf, pb; lra.
        - eapply ev_impl; [|exact (aperture_faces asort ey ez EU m X Y DX DY x h u P f bx ap th p c A CL EP ltac:(unfold th; lra) TS)].
          cbv beta. intros y _ H. replace (c - th / 2) with (pf - D1) in H by (unfold c, th, pf, pb; field). replace (c + th / 2) with (pb + D2) in H by (unfold c, th, pf, pb; field). exact H. }
      destruct r1 as [r1| | |]; [| | |congruence].
      - destruct (side_cases _ _ _ _ _ _ E1 TO1 BC1) as (i & b & s0 & f & bx & as' & -> & E0 & TS & TO0 & BC0 & EX & AO & EB).
        destruct (ST0 s0 TO0 BC0 E0) as (CB & EV). specialize (Z1 r1 eq_refl). destruct R1 as (_ & L1).
        assert (CB1 : core_box pf pb b).
        { rewrite EB, EX. destruct (rltb 0 r1) eqn:E; [|exact CB]. apply rltb_true in E. specialize (V2 r1 eq_refl E).
          apply (core_inter as' AO); [lra|exact CB|]. apply ball_core; [exact Z1|rewrite Rabs_right by lra; lra..]. }
        split; [exact CB1|]. apply (front_stage asort AS ey ez EU m X Y DX DY x h u P i b s0 f bx r1 pf pb (pb + D2) (fun _ => V4 1 0 0 0) D1); auto; try lra.
        + intro G. split; [|exact (V2 r1 eq_refl G)]. unfold D1. cbn [front_depth]. replace (rltb r1 0) with false by (symmetry; apply rltb_false; lra). reflexivity.
        + intro G. unfold D1. cbn [front_depth]. replace (rltb r1 0) with true by (symmetry; apply rltb_true; lra). apply side_depth_range; auto.
      - destruct (ST0 s1 TO1 BC1 E1) as (CB & EV). split; [exact CB|]. eapply ev_impl; [|exact EV]. cbv beta. intros y _ H. unfold D1 in H. cbn [front_depth] in H. rewrite Rminus_0_r in H.
        rewrite plane_norm by auto. exact H.
      - destruct (ST0 s1 TO1 BC1 E1) as (CB & EV). split; [exact CB|]. eapply ev_impl; [|exact EV]. cbv beta. intros y _ H. unfold D1 in H. cbn [front_depth] in H. rewrite Rminus_0_r in H.
        rewrite plane_norm by auto. exact H. }
    unfold placed_erased in ER. destruct r2 as [r2| | |]; [| | |destruct R2].
    - destruct (side_cases _ _ _ _ _ _ ER TO BC) as (i & b & s0 & f & bx & as' & -> & E0 & TS & TO0 & BC0 & EX & AO & EB).
      destruct (ST1 s0 TO0 BC0 E0) as (CB & EV). destruct R2 as (N2 & L2).
      assert (CB1 : core_box pf pb b).
      { rewrite EB, EX. destruct (rltb r2 0) eqn:E; [|exact CB]. apply rltb_true in E. specialize (F2 r2 eq_refl E).
        apply (core_inter as' AO); [lra|exact CB|]. apply ball_core; [exact N2|rewrite Rabs_left by lra; lra..]. }
      apply (back_stage asort AS ey ez EU m X Y DX DY x h u P i b s0 f bx r2 pf pb Tf (fun y => fnorm ey ez (-1) r1 pf (pat X DX (Tf y) y) (hat_ Y DY (Tf y) y)) D2); auto; try lra.
      + intro G. split; [|specialize (F2 r2 eq_refl G); rewrite Rabs_left by lra; lra]. unfold D2. cbn [back_depth]. replace (rltb 0 r2) with false by (symmetry; apply rltb_false; lra). reflexivity.
      + intro G. unfold D2. cbn [back_depth]. replace (rltb 0 r2) with true by (symmetry; apply rltb_true; lra). pose proof (side_depth_range r2 (reach ap) RP N2 L2) as Q. rewrite (Rabs_right r2) in Q by lra. exact Q.
      + apply (lim_ftime X Y DX DY x h u P); auto.
    - destruct (ST1 s TO BC ER) as (CB & EV). eapply ev_impl; [|exact EV]. cbv beta. intros y _ H. unfold D2 in H. cbn [back_depth] in H. rewrite Rplus_0_r in H.
      rewrite (plane_norm ey ez 1 PInf) by auto. exact H.
    - destruct (ST1 s TO BC ER) as (CB & EV). eapply ev_impl; [|exact EV]. cbv beta. intros y _ H. unfold D2 in H. cbn [back_depth] in H. rewrite Rplus_0_r in H.
      rewrite (plane_norm ey ez 1 MInf) by auto. exact H.
  Qed.
  Lemma lens_faces : forall s r1 r2 t ap p, ap_ok ap -> rim_clear ap -> lens_fits r1 r2 t (reach ap) ->
    create_aperture ap (t + front_depth r1 (reach ap) + back_depth r2 (reach ap)) = Some p ->
    tree_ok s -> boxes_current s -> erase s = lens_erased r1 r2 t m p ((back_depth r2 (reach ap) - front_depth r1 (reach ap)) / 2) ->
    let Tf := ftime X Y DX DY r1 (- (t / 2)) in let Tb := ftime X Y DX DY r2 (t / 2) in
    ev (fun y => spans_face asort ey ez m X Y DX DY s y
      (Tf y) (fnorm ey ez (-1) r1 (- (t / 2)) (pat X DX (Tf y) y) (hat_ Y DY (Tf y) y))
      (Tb y) (fnorm ey ez 1 r2 (t / 2) (pat X DX (Tb y) y) (hat_ Y DY (Tb y) y))).
  Proof.
    intros s r1 r2 t ap p A CL FIT EP TO BC ER. pose proof (placed_faces s 0 r1 r2 t ap p A CL FIT EP TO BC) as H.
    replace (0 - t / 2) with (- (t / 2)) in H by ring. rewrite !Rplus_0_l in H. exact (H ER).
  Qed.
End Faces.

(** ** Refraction in the plane *)
Section Bend.
  Variables ey ez : R.
  Hypothesis EU : ey * ey + ez * ez = 1.
  Lemma mdir_dot : forall a b c d, vdot (mdir ey ez a b) (mdir ey ez c d) = a * c + b * d.
  Proof.
    intros. unfold mdir, vdot; cbn [vx vy vz vw]. transitivity (a * c + b * d * (ey * ey + ez * ez)); [ring|rewrite EU; ring].
  Qed.
  Definition cin (dx dy C K : R) : R := dx * C - dy * K.
  Definition csq2 (q dx dy C K : R) : R := 1 - q * q * (1 - cin dx dy C K * cin dx dy C K).
  Definition bx (q dx dy C K : R) : R := q * dx - (q * cin dx dy C K - sqrt (csq2 q dx dy C K)) * C.
  Definition by_ (q dx dy C K : R) : R := q * dy + (q * cin dx dy C K - sqrt (csq2 q dx dy C K)) * K.
  Lemma refract_plane : forall sg dx dy C K n1 n2 g, (sg = -1 \/ sg = 1) -> dx * dx + dy * dy = 1 -> 0 < cin dx dy C K ->
    let n3 := if rltb 0 sg then g else n2 in let q := n1 / n3 in
    n3 <> 0 -> 0 < csq2 q dx dy C K -> bx q dx dy C K * bx q dx dy C K + by_ q dx dy C K * by_ q dx dy C K = 1 ->
    refract (mdir ey ez dx dy) (mdir ey ez (sg * C) (- sg * K)) n1 n2 g = Some (mdir ey ez (bx q dx dy C K) (by_ q dx dy C K), n3).
  Proof.
    intros sg dx dy C K n1 n2 g SG U CP n3 q N3 CS UB. unfold refract.
    rewrite vnormalize_unit by (rewrite mdir_dot; exact U). cbv zeta.
    assert (D : vdot (mdir ey ez dx dy) (mdir ey ez (sg * C) (- sg * K)) = sg * cin dx dy C K) by (rewrite mdir_dot; unfold cin; ring).
    assert (DN : vdot (mdir ey ez dx dy) (vopp (mdir ey ez (sg * C) (- sg * K))) = - sg * cin dx dy C K).
    { replace (vopp (mdir ey ez (sg * C) (- sg * K))) with (mdir ey ez (- sg * C) (sg * K)) by (unfold vopp, vscale, mdir; cbn [vx vy vz vw]; f_equal; ring). rewrite mdir_dot. unfold cin. ring. }
    rewrite D, DN. assert (B : rltb 0 (sg * cin dx dy C K) = rltb 0 sg).
    { destruct SG as [-> | ->].
      - transitivity false; [apply rltb_false; lra|symmetry; apply rltb_false; lra].
      - transitivity true; [apply rltb_true; lra|symmetry; apply rltb_true; lra]. }
    rewrite B. fold n3. destruct (Req_EM_T n3 0); [contradiction|]. fold q.
    assert (CC : (if rltb 0 sg then sg * cin dx dy C K else - sg * cin dx dy C K) = cin dx dy C K).
    { destruct SG as [-> | ->].
      - replace (rltb 0 (-1)) with false by (symmetry; apply rltb_false; lra). ring.
      - replace (rltb 0 1) with true by (symmetry; apply rltb_true; lra). ring. }
    rewrite CC. fold (csq2 q dx dy C K). rewrite Rmax_right by lra. replace (rltb 0 (csq2 q dx dy C K)) with true by (symmetry; apply rltb_true; exact CS).
    match goal with |- match vnormalize ?e with _ => _ end = _ => replace e with (mdir ey ez (bx q dx dy C K) (by_ q dx dy C K)) end.
    - rewrite vnormalize_unit by (rewrite mdir_dot; exact UB). reflexivity.
    - destruct SG as [-> | ->].
      + replace (rltb 0 (-1)) with false by (symmetry; apply rltb_false; lra). unfold vadd, vscale, mdir, bx, by_; cbn [vx vy vz vw]. f_equal; ring.
      + replace (rltb 0 1) with true by (symmetry; apply rltb_true; lra). unfold vopp, vadd, vscale, mdir, bx, by_; cbn [vx vy vz vw]. f_equal; ring.
  Qed.
End Bend.

(** ** The first of a lens and a screen *)
Section Two.
  Variable asort : list xr -> list nat.
  Hypothesis AS : argsort_ok asort.
  Lemma nth_inf : forall n k t, nth_error (repeat PInf n) k = Some (Fin t) -> False.
  Proof. intros n k t H. apply nth_error_In in H. apply repeat_spec in H. discriminate. Qed.
  Lemma reports_two : forall s g bx r u i v j w a k t sid, chord asort s r u i v j -> surf_hits g r = [Fin w; Fin w] ->
    reports asort [s; Leaf g bx] r a k t sid -> 0 < t /\ ((a = 0%nat /\ k = 0%nat /\ t = u /\ sid = i) \/ (a = 0%nat /\ k = 1%nat /\ t = v /\ sid = j) \/ (a = 1%nat /\ t = w /\ sid = s_id g)).
  Proof.
    intros s g bx r u i v j w a k t sid (n & rest & E & L & O & UV) HG (s' & N & H1 & H2 & T). split; [exact T|].
    destruct a as [|[|a]]; cbn [nth_error] in N; [injection N as <-|injection N as <-|destruct a; discriminate].
    - rewrite E in H1, H2. cbn [fst snd] in *. destruct k as [|[|k]]; cbn [nth_error] in H1, H2.
      + left. injection H1 as <-. injection H2 as <-. auto.
      + right; left. injection H1 as <-. injection H2 as <-. auto.
      + exfalso. eapply nth_inf; eauto.
    - right; right. cbn [shape_intersect fst snd] in H1, H2. rewrite HG in H1. destruct k as [|[|k]]; cbn [nth_error] in H1, H2; [injection H1 as <-; injection H2 as <-; auto..|destruct k; discriminate].
  Qed.
  Lemma first_enter : forall s g bx r u i v j w, chord asort s r u i v j -> surf_hits g r = [Fin w; Fin w] -> 0 < u -> u < w ->
    first_hit asort [s; Leaf g bx] r u i.
  Proof.
    intros s g bx r u i v j w C HG U W. pose proof C as (n & rest & E & L & O & UV). exists 0%nat, 0%nat. split.
    - exists s. rewrite E. auto.
    - intros a k t sid R. destruct (reports_two _ _ _ _ _ _ _ _ _ _ _ _ _ C HG R) as (T & [(-> & -> & -> & ->)|[(-> & -> & -> & ->)|(-> & -> & ->)]]).
      + right. split; [reflexivity|]. right. split; [reflexivity|lia].
      + left. exact UV.
      + left. exact W.
  Qed.
  Lemma first_leave : forall s g bx r u i v j w, chord asort s r u i v j -> surf_hits g r = [Fin w; Fin w] -> u <= 0 -> 0 < v -> v < w ->
    first_hit asort [s; Leaf g bx] r v j.
  Proof.
    intros s g bx r u i v j w C HG U V W. pose proof C as (n & rest & E & L & O & UV). exists 0%nat, 1%nat. split.
    - exists s. rewrite E. auto.
    - intros a k t sid R. destruct (reports_two _ _ _ _ _ _ _ _ _ _ _ _ _ C HG R) as (T & [(-> & -> & -> & ->)|[(-> & -> & -> & ->)|(-> & -> & ->)]]).
      + lra.
      + right. split; [reflexivity|]. right. split; [reflexivity|lia].
      + left. exact W.
  Qed.
  Lemma first_screen : forall s g bx r u i v j w, chord asort s r u i v j -> surf_hits g r = [Fin w; Fin w] -> v <= 0 -> 0 < w ->
    first_hit asort [s; Leaf g bx] r w (s_id g).
  Proof.
    intros s g bx r u i v j w C HG V W. pose proof C as (n & rest & E & L & O & UV). exists 1%nat, 0%nat. split.
    - exists (Leaf g bx). cbn [nth_error shape_intersect fst snd]. rewrite HG. auto.
    - intros a k t sid R. pose proof R as (s' & N & H1 & H2 & T0).
      destruct (reports_two _ _ _ _ _ _ _ _ _ _ _ _ _ C HG R) as (T & [(-> & -> & -> & ->)|[(-> & -> & -> & ->)|(-> & -> & ->)]]); [lra|lra|].
      right. split; [reflexivity|]. right. split; [reflexivity|lia].
  Qed.
End Two.
