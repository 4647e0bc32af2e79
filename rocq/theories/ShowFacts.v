(** * ShowFacts: the corners of a scene, and what draw and show return *)
From Coq Require Import Reals Lra Lia List Bool ZArith.
Import ListNotations.
From Verif Require Import XR XRFacts Arr Lin LinFacts Prim Csg CsgProps Surf SpecGeom SpecTree BoxFacts World Tracer TraceFacts
  Sources Render SpecRender RenderFacts RenderFacts2 RenderProps Utils UtilFacts UtilProps UtilProps2 SpecUtils Show SpecShow.
Open Scope R_scope.

(** ** The corners *)
Lemma axis_values_some : forall (span : box -> xr * xr) shapes xs, axis_values span shapes = Some xs ->
  forall s, In s shapes -> exists lo hi, span (shape_box s) = (Fin lo, Fin hi) /\ In lo xs /\ In hi xs.
Proof.
  intros span shapes xs A s S. unfold axis_values in A. apply collect_some in A.
  assert (P : forall x, In x (flat_map (fun s => [fst (span (shape_box s)); snd (span (shape_box s))]) shapes) -> exists r, x = Fin r /\ In r xs).
  { intros x X. apply (in_map finite) in X. cbv zeta in A. rewrite A in X. apply in_map_iff in X. destruct X as (r & E & I).
    exists r. split; auto. destruct x; cbn in E; try discriminate. congruence. }
  destruct (span (shape_box s)) as [a b] eqn:E.
  destruct (P a) as (lo & -> & L). { apply in_flat_map. exists s. rewrite E. cbn. auto. }
  destruct (P b) as (hi & -> & H). { apply in_flat_map. exists s. rewrite E. cbn. auto. }
  exists lo, hi. auto.
Qed.
Lemma axis_values_around : forall (span : box -> xr * xr) (f : corner -> R) shapes boxes,
  Forall2 (fun s (q : corner * corner) => span (shape_box s) = (Fin (f (fst q)), Fin (f (snd q)))) shapes boxes ->
  axis_values span shapes = Some (flat_map (fun q : corner * corner => [f (fst q); f (snd q)]) boxes).
Proof.
  intros span f shapes boxes F. unfold axis_values.
  rewrite <- (collect_map_some (flat_map (fun q : corner * corner => [f (fst q); f (snd q)]) boxes)). f_equal.
  induction F as [|s q ss qs E F IH]; auto. cbn [flat_map]. rewrite E. cbn [fst snd app map finite]. rewrite IH. reflexivity.
Qed.
Lemma list_min_smallest : forall f x (boxes : list (corner * corner)),
  (forall q, In q boxes -> f (fst q) <= f (snd q)) -> smallest f x (map fst boxes) ->
  list_min (flat_map (fun q : corner * corner => [f (fst q); f (snd q)]) boxes) = x.
Proof.
  intros f x boxes O ((c & C & <-) & L). apply in_map_iff in C. destruct C as (q & <- & Q).
  set (l := flat_map _ _). assert (I : In (f (fst q)) l). { apply in_flat_map. exists q. cbn. auto. }
  apply Rle_antisym; [apply list_min_le; auto|].
  assert (N : l <> []) by (intros E; rewrite E in I; destruct I). apply list_min_in in N. apply in_flat_map in N. destruct N as (p & P & [E|[E|[]]]); rewrite <- E.
  - apply L, in_map; auto.
  - eapply Rle_trans; [apply L, in_map, P|apply O; auto].
Qed.
Lemma list_max_greatest : forall f x (boxes : list (corner * corner)),
  (forall q, In q boxes -> f (fst q) <= f (snd q)) -> greatest f x (map snd boxes) ->
  list_max (flat_map (fun q : corner * corner => [f (fst q); f (snd q)]) boxes) = x.
Proof.
  intros f x boxes O ((c & C & <-) & L). apply in_map_iff in C. destruct C as (q & <- & Q).
  set (l := flat_map _ _). assert (I : In (f (snd q)) l). { apply in_flat_map. exists q. cbn. auto. }
  apply Rle_antisym; [|apply list_max_ge; auto].
  assert (N : l <> []) by (intros E; rewrite E in I; destruct I). apply list_max_in in N. apply in_flat_map in N. destruct N as (p & P & [E|[E|[]]]); rewrite <- E.
  - eapply Rle_trans; [apply O; auto|apply L, in_map, P].
  - apply L, in_map; auto.
Qed.
Lemma around_corners : forall shapes mins maxes, around shapes mins maxes -> scene_corners shapes = Some (mins, maxes).
Proof.
  intros shapes mins maxes (boxes & F & X0 & Y0 & Z0 & X1 & Y1 & Z1).
  assert (O : forall q, In q boxes -> cx (fst q) <= cx (snd q) /\ cy (fst q) <= cy (snd q) /\ cz (fst q) <= cz (snd q)).
  { clear - F. induction F as [|s q ss qs (_ & E) F IH]; [intros q []|]. intros p [<-|P]; auto. }
  unfold scene_corners.
  rewrite (axis_values_around spanx cx shapes boxes), (axis_values_around spany cy shapes boxes), (axis_values_around spanz cz shapes boxes);
    try (clear - F; induction F as [|s q ss qs ((A & B & C) & _) F IH]; constructor; auto).
  rewrite (list_min_smallest cx (cx mins)), (list_min_smallest cy (cy mins)), (list_min_smallest cz (cz mins)),
    (list_max_greatest cx (cx maxes)), (list_max_greatest cy (cy maxes)), (list_max_greatest cz (cz maxes));
    auto; try (intros q Q; apply O; auto). destruct mins, maxes; reflexivity.
Qed.
Lemma around_nonempty : forall shapes mins maxes, around shapes mins maxes -> shapes <> [].
Proof. intros shapes mins maxes (boxes & F & ((c & C & _) & _) & _) ->. inversion F; subst. destruct C. Qed.

(** ** The picture *)
Lemma draw_pixels : forall n h v, 0 < h -> 0 < v -> h <= INR n * v -> v <= INR n * h -> forall m,
  let c := Camera (Z.to_nat (draw_resolution n h v)) h (v / h) m in
  (0 < cam_h_pixels c)%nat /\ (0 < cam_v_pixels c)%Z.
Proof.
  intros n h v H V HV VH m c.
  assert (K : forall x, 1 <= x -> (0 < int_trunc x)%Z).
  { intros x X. destruct (int_trunc_nonneg x) as (A & B); [lra|]. destruct B as (B0 & B1). assert (Q : 0 < IZR (int_trunc x)) by (apply Rplus_lt_reg_r with 1; lra). apply lt_IZR in Q. auto. }
  assert (N : 0 < INR n). { pose proof (pos_INR n). destruct (Rlt_dec 0 (INR n)) as [|L]; auto. assert (E : INR n = 0) by lra. rewrite E in HV. lra. }
  assert (P : (0 < cam_h_pixels c)%nat /\ 1 <= v / h * INR (cam_h_pixels c)).
  { cbn [c cam_h_pixels]. unfold draw_resolution. destruct (Rlt_dec v h) as [L|L].
    - rewrite rltb_true by auto. rewrite Nat2Z.id. split; [apply INR_lt; auto|].
      apply (Rmult_le_reg_r h); auto. replace (v / h * INR n * h) with (INR n * v) by (field; lra). lra.
    - rewrite rltb_false by lra.
      assert (X : 1 <= INR n * h / v). { apply (Rmult_le_reg_r v); auto. replace (INR n * h / v * v) with (INR n * h) by (field; lra). lra. }
      pose proof (K _ X) as Q. split; [lia|]. set (k := Z.to_nat (int_trunc (INR n * h / v))). assert (1 <= INR k) by (change 1 with (INR 1); apply le_INR; unfold k; lia).
      assert (1 <= v / h). { apply (Rmult_le_reg_r h); auto. replace (v / h * h) with v by (field; lra). lra. }
      nra. }
  destruct P as (P & Q). split; auto. apply K. exact Q.
Qed.
Lemma view_drawn : forall asort gooch_of shapes shaded v rays,
  cam_rays (v_camera v) = Some rays -> (0 < cam_h_pixels (v_camera v))%nat -> (0 < cam_v_pixels (v_camera v))%Z ->
  exists image, draw_view asort gooch_of shapes shaded (Some v) = Drawn image (v_extent v).
Proof.
  intros asort gooch_of shapes shaded v rays R H V. unfold draw_view. destruct shaded.
  - unfold shaded_image. rewrite R. eauto.
  - unfold edge_image. rewrite R. cbv zeta. replace (Z.to_nat (cam_v_pixels (v_camera v)) =? 0)%nat with false by (symmetry; apply Nat.eqb_neq; lia).
    replace (cam_h_pixels (v_camera v) =? 0)%nat with false by (symmetry; apply Nat.eqb_neq; lia). cbn [orb option_map]. eauto.
Qed.
Definition extent_of (v : view_name) (mins maxes : corner) : R * R * R * R :=
  let '(w, h) := sides v mins maxes in
  let '(x, y) := ((cx maxes + cx mins) / 2, match v with XZ => (cz maxes + cz mins) / 2 | _ => (cy maxes + cy mins) / 2 end) in
  (x - 15 / 10 * w / 2, x + 15 / 10 * w / 2, y - 15 / 10 * h / 2, y + 15 / 10 * h / 2).

Lemma draw_ok : forall asort gooch_of shapes v shaded bounds n mins maxes, v = XY \/ v = XZ -> shapes <> [] ->
  pictured shapes bounds mins maxes -> showable n (sides v mins maxes) ->
  exists image, draw asort gooch_of shapes v shaded bounds n = Drawn image (extent_of v mins maxes).
Proof.
  intros asort gooch_of shapes v shaded bounds n mins maxes V NE P (W & H & WH & HW).
  assert (C : match bounds with Some b => Some b | None => scene_corners shapes end = Some (mins, maxes)).
  { destruct bounds as [[lo hi]|]; cbn in P; [destruct P as (-> & ->); auto|apply around_corners; auto]. }
  unfold draw. destruct shapes as [|s ss]; [congruence|]. cbv zeta. rewrite C. clear C.
  destruct V as [-> | ->]; cbn [sides fst snd] in *.
  - rewrite !rltb_true by lra. cbn [andb].
    destruct (draw_xy_pixels n maxes mins) as (v & rays & D & R & _); [lra|lra|]. rewrite D.
    unfold draw_xy in D. cbv zeta in D. rewrite !(proj2 (reqb_false _ _)) in D by lra. cbn [orb] in D. rewrite moved_xy in D. injection D as <-.
    match goal with |- context [draw_view _ _ _ _ (Some ?v)] => destruct (view_drawn asort gooch_of (s :: ss) shaded v rays R) as (image & I) end.
    1, 2: cbn [v_camera]; apply (draw_pixels n (15 / 10 * (cx maxes - cx mins)) (15 / 10 * (cy maxes - cy mins))); lra.
    exists image. rewrite I. cbn [v_extent]. reflexivity.
  - rewrite !rltb_true by lra. cbn [andb].
    destruct (draw_xz_pixels n maxes mins) as (v & rays & D & R & _); [lra|lra|]. rewrite D.
    unfold draw_xz in D. cbv zeta in D. rewrite !(proj2 (reqb_false _ _)) in D by lra. cbn [orb] in D. rewrite moved_xz in D. injection D as <-.
    match goal with |- context [draw_view _ _ _ _ (Some ?v)] => destruct (view_drawn asort gooch_of (s :: ss) shaded v rays R) as (image & I) end.
    1, 2: cbn [v_camera]; apply (draw_pixels n (15 / 10 * (cx maxes - cx mins)) (15 / 10 * (cz maxes - cz mins))); lra.
    exists image. rewrite I. cbn [v_extent]. reflexivity.
Qed.
