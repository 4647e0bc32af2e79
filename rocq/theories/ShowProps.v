(** * ShowProps: the properties of draw and show *)
From Coq Require Import Reals Lra Lia List Bool ZArith.
Import ListNotations.
From Verif Require Import XR XRFacts Arr Lin LinFacts Prim Csg CsgProps Surf SpecGeom SpecTree BoxFacts TreeFacts TreeProps World Tracer TraceFacts TraceFacts2 SpecTrace TraceFacts5 TraceProps
  Sources Render SpecRender RenderFacts RenderFacts2 RenderProps Utils UtilFacts UtilProps UtilProps2 SpecUtils Show SpecShow ShowFacts.
Open Scope R_scope.

Lemma nth_combine : forall A B (l1 : list A) (l2 : list B) k a b, nth_error l1 k = Some a -> nth_error l2 k = Some b ->
  nth_error (combine l1 l2) k = Some (a, b).
Proof. intros A B. induction l1 as [|x l1 IH]; intros [|y l2] [|k] a b E F; cbn in *; try discriminate; auto; congruence. Qed.

(** ** The legs *)
Lemma inks_length : forall junk how t inks, row_inks junk how t = Some inks -> length inks = length (f_rows (t_frame t)).
Proof.
  intros junk how t inks I. unfold row_inks in I. destruct how.
  - injection I as <-. apply map_length.
  - rewrite rgb_array in I by (unfold default_gamma; lra). injection I as <-. rewrite !map_length. auto.
  - rewrite rgb_array in I by (unfold default_gamma; lra). injection I as <-. rewrite map_length, combine_length, seq_length. apply Nat.min_id.
Qed.
Lemma shown_inv : forall asort gooch_of h junk v how shaded bounds n t image extent rays,
  show asort gooch_of h junk v how shaded bounds n t = Shown image extent rays ->
  exists inks comps ax, row_inks junk how t = Some inks /\ collect (map (shape_of h) (t_comps t)) = Some comps /\
    draw asort gooch_of comps v shaded bounds n = Drawn image extent /\ axes_of v = Some ax /\
    rays = if t_complete t then Some (map (arrow_of ax) (combine (f_rows (t_frame t)) inks)) else None.
Proof.
  intros asort gooch_of h junk v how shaded bounds n t image extent rays S. unfold show in S.
  destruct (row_inks junk how t) as [inks|]; [|discriminate].
  destruct (collect (map (shape_of h) (t_comps t))) as [comps|]; [|discriminate].
  destruct (draw asort gooch_of comps v shaded bounds n) as [im ex| | |] eqn:D; destruct (axes_of v) as [ax|]; try discriminate.
  injection S as <- <- <-. exists inks, comps, ax. auto.
Qed.
Lemma arrows_legs : forall v ax rows inks, axes_of v = Some ax -> length inks = length rows ->
  draws_the_legs v rows (map (arrow_of ax) (combine rows inks)).
Proof.
  intros v ax rows inks A L. split; [rewrite map_length, combine_length, L; apply Nat.min_id|].
  intros k w W. destruct (nth_error inks k) as [i|] eqn:I.
  2:{ apply nth_error_None in I. assert (k < length rows)%nat by (apply nth_error_Some; congruence). lia. }
  exists (arrow_of ax (w, i)). split.
  - rewrite nth_error_map, (nth_combine _ _ _ _ _ w i); auto.
  - destruct v; inversion A; subst; unfold arrow_tail, arrow_tip, projected; cbn; split; auto; f_equal; ring.
Qed.
Lemma show_draws_legs : forall asort gooch_of h gen fuel t0 t, trace asort h gen fuel t0 = TOk t ->
  forall junk v how shaded bounds n image extent rays,
  show asort gooch_of h junk v how shaded bounds n t = Shown image extent rays ->
  exists arrows, rays = Some arrows /\ draws_the_legs v (f_rows (get_results t)) arrows.
Proof.
  intros asort gooch_of h gen fuel t0 t T junk v how shaded bounds n image extent rays S.
  apply trace_inv in T. destruct T as (c1 & lut & k & _ & _ & _ & _ & _ & _ & _ & _ & TC & _).
  apply shown_inv in S. destruct S as (inks & comps & ax & I & _ & _ & A & ->). rewrite TC. eexists. split; [reflexivity|].
  apply arrows_legs; auto. eapply inks_length; eauto.
Qed.
Lemma show_without_trace : forall asort gooch_of h t, (exists h0 ss cs n l, new_tracer h0 ss cs n l = Some t) \/ (exists t0, t = reset t0) ->
  forall junk v how shaded bounds n image extent rays,
  show asort gooch_of h junk v how shaded bounds n t = Shown image extent rays -> rays = None.
Proof.
  intros asort gooch_of h t T junk v how shaded bounds n image extent rays S.
  apply shown_inv in S. destruct S as (inks & comps & ax & _ & _ & _ & _ & ->).
  destruct T as [(h0 & ss & cs & m & l & T)|(t0 & ->)]; [|reflexivity].
  unfold new_tracer in T. destruct (collect (map (lut_of h0) cs)); [injection T as <-; reflexivity|discriminate].
Qed.
Lemma show_ok : forall asort gooch_of h junk v how shaded bounds n t comps mins maxes,
  v = XY \/ v = XZ -> map (shape_of h) (t_comps t) = map Some comps -> comps <> [] ->
  pictured comps bounds mins maxes -> showable n (sides v mins maxes) ->
  exists image rays, show asort gooch_of h junk v how shaded bounds n t = Shown image (extent_of v mins maxes) rays.
Proof.
  intros asort gooch_of h junk v how shaded bounds n t comps mins maxes V C NE P S. unfold show. rewrite C, collect_map_some.
  destruct (draw_ok asort gooch_of comps v shaded bounds n mins maxes V NE P S) as (image & D). rewrite D.
  assert (I : exists inks, row_inks junk how t = Some inks).
  { unfold row_inks. destruct how; [eauto| |]; rewrite rgb_array by (unfold default_gamma; lra); cbn; eauto. }
  destruct I as (inks & I). rewrite I. destruct V as [-> | ->]; cbn [axes_of]; eauto.
Qed.
Lemma show_other_view : forall asort gooch_of h junk how shaded bounds n t image extent rays,
  show asort gooch_of h junk OtherView how shaded bounds n t <> Shown image extent rays.
Proof. intros asort gooch_of h junk how shaded bounds n t image extent rays S. apply shown_inv in S. destruct S as (inks & comps & ax & _ & _ & _ & A & _). discriminate. Qed.

(** ** Colours *)
Lemma arrow_ink : forall asort gooch_of h junk v how shaded bounds n t image extent arrows,
  show asort gooch_of h junk v how shaded bounds n t = Shown image extent (Some arrows) ->
  exists inks, row_inks junk how t = Some inks /\
  forall k w, nth_error (f_rows (get_results t)) k = Some w -> exists a, nth_error arrows k = Some a /\ nth_error inks k = Some (a_ink a).
Proof.
  intros asort gooch_of h junk v how shaded bounds n t image extent arrows S.
  apply shown_inv in S. destruct S as (inks & comps & ax & I & _ & _ & A & R).
  destruct (t_complete t); [|discriminate]. injection R as ->. exists inks. split; auto. apply inks_length in I.
  unfold get_results. intros k w W. destruct (nth_error inks k) as [i|] eqn:J.
  2:{ apply nth_error_None in J. assert (k < length (f_rows (t_frame t)))%nat by (apply nth_error_Some; congruence). lia. }
  exists (arrow_of ax (w, i)). split.
  - rewrite nth_error_map, (nth_combine _ _ _ _ _ w i); auto.
  - destruct ax; reflexivity.
Qed.
Lemma ink_wavelength : forall junk t inks k w, row_inks junk ByWavelength t = Some inks -> nth_error (f_rows (get_results t)) k = Some w ->
  nth_error inks k = Some (Ink (colour default_gamma (row_wl w))).
Proof.
  intros junk t inks k w I W. unfold row_inks in I. rewrite rgb_array in I by (unfold default_gamma; lra). injection I as <-.
  rewrite !nth_error_map. unfold get_results in W. rewrite W. reflexivity.
Qed.
Lemma pick_skip : forall cs n m id c, (id < n * m)%nat -> pick_source cs n m id c = c.
Proof.
  induction cs as [|x cs IH]; intros n m id c L; auto. cbn [pick_source]. rewrite IH by (cbn; lia).
  replace (n * m <=? id)%nat with false by (symmetry; apply Nat.leb_gt; auto). reflexivity.
Qed.
Lemma pick_nth : forall cs n m i j c x, (j < m)%nat -> nth_error cs i = Some x -> pick_source cs n m ((n + i) * m + j) c = x.
Proof.
  induction cs as [|y cs IH]; intros n m i j c x J X; [destruct i; discriminate|]. cbn [pick_source]. destruct i as [|i].
  - cbn in X. injection X as ->. rewrite pick_skip by (rewrite Nat.add_0_r; cbn; lia). rewrite Nat.add_0_r.
    replace (n * m <=? n * m + j)%nat with true by (symmetry; apply Nat.leb_le; lia).
    replace (n * m + j <? (n + 1) * m)%nat with true by (symmetry; apply Nat.ltb_lt; nia). reflexivity.
  - cbn in X. replace (n + S i)%nat with (S n + i)%nat by lia. apply IH; auto.
Qed.
(** The colours of the sources *)
Definition palette (count i : nat) : rgb := colour default_gamma (45 / 100 + INR i * ((65 / 100 - 45 / 100) / INR (count - 1))).
Lemma palette_wave : forall count i, (i < count)%nat -> visible (45 / 100 + INR i * ((65 / 100 - 45 / 100) / INR (count - 1))).
Proof.
  intros count i L. unfold visible. destruct (Nat.eq_dec count 1) as [->|N].
  - replace i with O by lia. cbn [INR]. lra.
  - assert (P : 0 < INR (count - 1)) by (apply lt_0_INR; lia). assert (Q : INR i <= INR (count - 1)) by (apply le_INR; lia).
    pose proof (pos_INR i). set (d := INR (count - 1)) in *. set (x := INR i) in *.
    assert (E : x * ((65 / 100 - 45 / 100) / d) = 2 / 10 * (x / d)) by (field; lra). rewrite E.
    assert (0 <= x / d <= 1).
    { split; [apply Rmult_le_pos; [lra|left; apply Rinv_0_lt_compat; auto]|]. apply (Rmult_le_reg_r d); auto. replace (x / d * d) with x by (field; lra). lra. }
    lra.
Qed.
Lemma palette_injective : forall count i j, (i < count)%nat -> (j < count)%nat -> palette count i = palette count j -> i = j.
Proof.
  intros count i j I J E. unfold palette in E. apply colour_injective in E; [|unfold default_gamma; lra|apply palette_wave; auto|apply palette_wave; auto].
  destruct (Nat.eq_dec count 1) as [->|N]; [lia|]. assert (P : 0 < INR (count - 1)) by (apply lt_0_INR; lia).
  apply INR_eq. assert (X : INR i * ((65 / 100 - 45 / 100) / INR (count - 1)) = INR j * ((65 / 100 - 45 / 100) / INR (count - 1))) by lra.
  apply Rmult_eq_reg_r in X; auto. apply Rgt_not_eq. unfold Rdiv. apply Rmult_lt_0_compat; [lra|apply Rinv_0_lt_compat; auto].
Qed.
Lemma ink_source : forall junk t inks k w i j, row_inks junk BySource t = Some inks -> nth_error (f_rows (get_results t)) k = Some w ->
  (i < length (t_sources t))%nat -> (j < t_n t)%nat -> row_id w = (i * t_n t + j)%nat ->
  nth_error inks k = Some (Ink (palette (length (t_sources t)) i)).
Proof.
  intros junk t inks k w i j I W L J E. unfold row_inks in I. rewrite rgb_array in I by (unfold default_gamma; lra). injection I as <-.
  unfold get_results in W. rewrite nth_error_map.
  assert (K : (k < length (f_rows (t_frame t)))%nat) by (apply nth_error_Some; congruence).
  rewrite (nth_combine _ _ _ _ _ k w); auto.
  2:{ rewrite nth_error_nth' with (d := O) by (rewrite seq_length; auto). rewrite seq_nth by auto. reflexivity. }
  cbn [option_map fst snd]. do 2 f_equal. rewrite E. rewrite <- (Nat.add_0_l i) at 1. apply pick_nth; auto.
  rewrite nth_error_map. unfold linspace. rewrite nth_error_map.
  rewrite nth_error_nth' with (d := O) by (rewrite seq_length; auto). rewrite seq_nth by auto. reflexivity.
Qed.
Lemma show_by_source : forall asort gooch_of h gen fuel t0 t, trace asort h gen fuel t0 = TOk t ->
  (forall s, In s (t_sources t0) -> length (gen s (t_n t0)) = t_n t0) ->
  forall junk v shaded bounds n image extent arrows,
  show asort gooch_of h junk v BySource shaded bounds n t = Shown image extent (Some arrows) ->
  exists colour_of : nat -> rgb,
    (forall i j, (i < length (t_sources t0))%nat -> (j < length (t_sources t0))%nat -> colour_of i = colour_of j -> i = j) /\
    forall k w, nth_error (f_rows (get_results t)) k = Some w -> exists a i s j c,
      nth_error arrows k = Some a /\ nth_error (t_sources t0) i = Some s /\ nth_error (gen s (t_n t0)) j = Some c /\
      row_id w = (i * t_n t0 + j)%nat /\ a_ink a = Ink (colour_of i).
Proof.
  intros asort gooch_of h gen fuel t0 t T L junk v shaded bounds n image extent arrows S.
  exists (palette (length (t_sources t0))). split; [intros; eapply palette_injective; eauto|].
  destruct (source_ids_right _ _ _ _ _ _ T L) as (ids & _ & _ & _ & R).
  pose proof (trace_inv _ _ _ _ _ _ T) as (c1 & lut & kk & _ & _ & _ & _ & _ & _ & _ & _ & _ & SO & _ & TN & _).
  destruct (arrow_ink _ _ _ _ _ _ _ _ _ _ _ _ _ S) as (inks & I & A). intros k w W.
  destruct (R k w W) as (i & s & j & c & _ & Si & G & E & J). destruct (A k w W) as (a & NA & NI).
  exists a, i, s, j, c. split; auto. split; auto. split; auto. split; auto.
  rewrite <- SO, <- TN in *. rewrite (ink_source _ _ _ _ _ i j I W) in NI; auto; [congruence|apply nth_error_Some; congruence].
Qed.

(** ** The frame of the picture *)
Lemma drawn_inv : forall asort gooch_of shapes v shaded n image extent,
  draw asort gooch_of shapes v shaded None n = Drawn image extent ->
  exists mins maxes, scene_corners shapes = Some (mins, maxes) /\ (v = XY \/ v = XZ) /\
    0 < fst (sides v mins maxes) /\ 0 < snd (sides v mins maxes) /\ extent = extent_of v mins maxes.
Proof.
  intros asort gooch_of shapes v shaded n image extent D. unfold draw in D. destruct shapes as [|s ss]; [discriminate|]. cbv zeta in D.
  set (shapes := s :: ss) in *. destruct v; [| |discriminate]; destruct (scene_corners shapes) as [[mins maxes]|]; try discriminate; exists mins, maxes.
  - destruct (rltb (cx mins) (cx maxes)) eqn:X; [|discriminate]. destruct (rltb (cy mins) (cy maxes)) eqn:Y; [|discriminate].
    apply XRFacts.rltb_true in X. apply XRFacts.rltb_true in Y. split; auto. split; auto. cbn [sides fst snd]. split; [lra|]. split; [lra|].
    cbn [andb] in D. unfold draw_view in D. destruct (draw_xy n maxes mins) as [w|] eqn:V; [|discriminate].
    destruct (if shaded then _ else _); [|discriminate]. injection D as _ <-.
    unfold draw_xy in V. cbv zeta in V. rewrite !(proj2 (reqb_false _ _)) in V by lra. cbn [orb] in V. rewrite moved_xy in V. injection V as <-. reflexivity.
  - destruct (rltb (cx mins) (cx maxes)) eqn:X; [|discriminate]. destruct (rltb (cz mins) (cz maxes)) eqn:Y; [|discriminate].
    apply XRFacts.rltb_true in X. apply XRFacts.rltb_true in Y. split; auto. split; auto. cbn [sides fst snd]. split; [lra|]. split; [lra|].
    cbn [andb] in D. unfold draw_view in D. destruct (draw_xz n maxes mins) as [w|] eqn:V; [|discriminate].
    destruct (if shaded then _ else _); [|discriminate]. injection D as _ <-.
    unfold draw_xz in V. cbv zeta in V. rewrite !(proj2 (reqb_false _ _)) in V by lra. cbn [orb] in V. rewrite moved_xz in V. injection V as <-. reflexivity.
Qed.
Lemma in_corners_span : forall (span : box -> xr * xr) shapes xs s x, axis_values span shapes = Some xs -> In s shapes ->
  in_span (span (shape_box s)) x -> list_min xs <= x <= list_max xs.
Proof.
  intros span shapes xs s x A S X. destruct (axis_values_some span shapes xs A s S) as (lo & hi & E & L & H). rewrite E in X.
  destruct X as (P & Q). cbn [fst snd xleb] in P, Q. apply XRFacts.rleb_true in P. apply XRFacts.rleb_true in Q.
  pose proof (list_min_le _ _ L). pose proof (list_max_ge _ _ H). lra.
Qed.
Lemma picture_holds : forall asort gooch_of shapes v shaded n image extent,
  draw asort gooch_of shapes v shaded None n = Drawn image extent ->
  forall s q, In s shapes -> in_box (shape_box s) q -> in_extent extent (projected v q).
Proof.
  intros asort gooch_of shapes v shaded n image extent D s q S (X & Y & Z).
  destruct (drawn_inv _ _ _ _ _ _ _ _ D) as (mins & maxes & C & V & W & H & ->). unfold scene_corners in C.
  destruct (axis_values spanx shapes) as [xs|] eqn:AX; [|discriminate]. destruct (axis_values spany shapes) as [ys|] eqn:AY; [|discriminate].
  destruct (axis_values spanz shapes) as [zs|] eqn:AZ; [|discriminate]. injection C as <- <-.
  pose proof (in_corners_span _ _ _ _ _ AX S X). pose proof (in_corners_span _ _ _ _ _ AY S Y). pose proof (in_corners_span _ _ _ _ _ AZ S Z).
  destruct V as [-> | ->]; unfold in_extent, extent_of, projected; cbn [sides fst snd cx cy cz] in *; lra.
Qed.
