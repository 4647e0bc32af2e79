(** * ShowProps3: scenes too thin for a picture, and the colours in show *)
From Coq Require Import Reals Lra Lia List Bool ZArith.
Import ListNotations.
From Verif Require Import XR XRFacts Arr Lin LinFacts Prim Csg CsgProps Surf SpecGeom SpecTree BoxFacts TreeFacts TreeExamples TreeProps UnionFacts World SpecWorld WorldExamples Tracer TraceFacts TraceFacts2 SpecTrace TraceProps
  TraceExamples Sources Render SpecRender RenderFacts RenderFacts2 RenderProps Utils UtilFacts UtilProps UtilProps2 SpecUtils Show SpecShow ShowFacts ShowProps ShowProps2.
Open Scope R_scope.

Lemma trunc_small : forall x, 0 <= x < 1 -> int_trunc x = 0%Z.
Proof.
  intros x [A B]. destruct (int_trunc_nonneg x A) as (P & Q & R). assert (L : IZR (int_trunc x) < 1) by lra.
  apply lt_IZR in L. lia.
Qed.
Lemma no_rows : forall n h v m, 0 < h -> 0 < v -> INR n * v < h \/ INR n * h < v ->
  cam_v_pixels (Camera (Z.to_nat (draw_resolution n h v)) h (v / h) m) = 0%Z.
Proof.
  intros n h v m H V T. unfold cam_v_pixels. cbn [cam_aspect cam_h_pixels]. pose proof (pos_INR n) as N. unfold draw_resolution.
  destruct (Rlt_dec v h) as [L|L].
  - rewrite UtilFacts.rltb_true by auto. rewrite Nat2Z.id. apply trunc_small.
    assert (E : v / h * INR n = INR n * v / h) by (field; lra). rewrite E. split.
    + apply Rmult_le_pos; [nra|]. apply Rlt_le, Rinv_0_lt_compat; auto.
    + apply (Rmult_lt_reg_r h); auto. replace (INR n * v / h * h) with (INR n * v) by (field; lra).
      destruct T as [T|T]; [lra|]. destruct n as [|n]; [cbn in *; lra|]. rewrite S_INR in *. pose proof (pos_INR n). nra.
  - rewrite UtilFacts.rltb_false by lra. rewrite (trunc_small (INR n * h / v)).
    + cbn [Z.to_nat INR]. rewrite Rmult_0_r. apply trunc_small. lra.
    + split; [apply Rmult_le_pos; [nra|]; apply Rlt_le, Rinv_0_lt_compat; auto|].
      apply (Rmult_lt_reg_r v); auto. replace (INR n * h / v * v) with (INR n * h) by (field; lra).
      destruct T as [T|T]; [|lra]. destruct n as [|n]; [cbn in *; lra|]. rewrite S_INR in *. pose proof (pos_INR n). nra.
Qed.
Lemma view_empty : forall asort gooch_of shapes v rays,
  cam_rays (v_camera v) = Some rays -> cam_v_pixels (v_camera v) = 0%Z ->
  draw_view asort gooch_of shapes false (Some v) = DrawRaises ValueError.
Proof. intros asort gooch_of shapes v rays R V. unfold draw_view, edge_image. rewrite R, V. reflexivity. Qed.

Lemma draw_thin : forall asort gooch_of shapes v bounds n mins maxes, v = XY \/ v = XZ -> shapes <> [] ->
  pictured shapes bounds mins maxes -> 0 < fst (sides v mins maxes) -> 0 < snd (sides v mins maxes) -> 
  INR n * snd (sides v mins maxes) < fst (sides v mins maxes) \/ INR n * fst (sides v mins maxes) < snd (sides v mins maxes) ->
  draw asort gooch_of shapes v false bounds n = DrawRaises ValueError.
Proof.
  intros asort gooch_of shapes v bounds n mins maxes V NE P W H T.
  assert (C : match bounds with Some b => Some b | None => scene_corners shapes end = Some (mins, maxes)).
  { destruct bounds as [[lo hi]|]; cbn in P; [destruct P as (-> & ->); auto|apply around_corners; auto]. }
  unfold draw. destruct shapes as [|s ss]; [congruence|]. cbv zeta. rewrite C. clear C.
  destruct V as [-> | ->]; cbn [sides fst snd] in *.
  - rewrite !rltb_true by lra. cbn [andb].
    destruct (draw_xy_pixels n maxes mins) as (v & rays & D & R & _); [lra|lra|]. rewrite D.
    unfold draw_xy in D. cbv zeta in D. rewrite !(proj2 (reqb_false _ _)) in D by lra. cbn [orb] in D. rewrite moved_xy in D. injection D as <-.
    eapply view_empty; [exact R|]. cbn [v_camera]. apply no_rows; lra.
  - rewrite !rltb_true by lra. cbn [andb].
    destruct (draw_xz_pixels n maxes mins) as (v & rays & D & R & _); [lra|lra|]. rewrite D.
    unfold draw_xz in D. cbv zeta in D. rewrite !(proj2 (reqb_false _ _)) in D by lra. cbn [orb] in D. rewrite moved_xz in D. injection D as <-.
    eapply view_empty; [exact R|]. cbn [v_camera]. apply no_rows; lra.
Qed.

Lemma collect_back : forall A (l : list (option A)) xs, l = map Some xs -> collect l = Some xs.
Proof. intros A l xs ->. induction xs as [|x xs IH]; simpl; auto. rewrite IH. auto. Qed.
Lemma inks_total : forall junk how t, exists inks, row_inks junk how t = Some inks.
Proof. intros junk how t. unfold row_inks. cbv zeta. destruct how; cbn [wavelength_to_rgb option_map]; eauto. Qed.

(** Exactly which scenes show draws (not shaded, a view that exists) *)
Lemma show_iff : forall asort gooch_of h junk v how bounds n t comps mins maxes,
  v = XY \/ v = XZ -> map (shape_of h) (t_comps t) = map Some comps -> comps <> [] ->
  pictured comps bounds mins maxes -> 0 < fst (sides v mins maxes) -> 0 < snd (sides v mins maxes) ->
  (showable n (sides v mins maxes) /\ exists image extent rays, show asort gooch_of h junk v how false bounds n t = Shown image extent rays) \/
  (~ showable n (sides v mins maxes) /\ show asort gooch_of h junk v how false bounds n t = ShowRaises ValueError).
Proof.
  intros asort gooch_of h junk v how bounds n t comps mins maxes V M NE P W H.
  destruct (Rle_dec (fst (sides v mins maxes)) (INR n * snd (sides v mins maxes))) as [A|A].
  - destruct (Rle_dec (snd (sides v mins maxes)) (INR n * fst (sides v mins maxes))) as [B|B].
    + left. assert (S : showable n (sides v mins maxes)) by (repeat split; auto). split; auto.
      destruct (show_ok asort gooch_of h junk v how false bounds n t comps mins maxes V M NE P S) as (i & r & E). eauto.
    + right. split; [intros (_ & _ & _ & X); lra|]. unfold show. destruct (inks_total junk how t) as (inks & ->).
      rewrite (collect_back _ _ _ M), (draw_thin asort gooch_of comps v bounds n mins maxes) by (auto; lra). auto.
  - right. split; [intros (_ & _ & X & _); lra|]. unfold show. destruct (inks_total junk how t) as (inks & ->).
    rewrite (collect_back _ _ _ M), (draw_thin asort gooch_of comps v bounds n mins maxes) by (auto; lra). auto.
Qed.
(** No components: an exception *)
Lemma show_empty : forall asort gooch_of h junk v how shaded bounds n t, t_comps t = [] ->
  show asort gooch_of h junk v how shaded bounds n t = ShowRaises ValueError.
Proof. intros asort gooch_of h junk v how shaded bounds n t E. unfold show. destruct (inks_total junk how t) as (inks & ->). rewrite E. reflexivity. Qed.

(** ** Colours *)
Lemma show_by_wavelength : forall asort gooch_of h junk v shaded bounds n t image extent arrows,
  show asort gooch_of h junk v ByWavelength shaded bounds n t = Shown image extent (Some arrows) ->
  (forall k w, nth_error (f_rows (get_results t)) k = Some w -> exists a c, nth_error arrows k = Some a /\ a_ink a = Ink c /\
     forall junk', wavelength_to_rgb junk' (Array [row_wl w]) (8 / 10) = Some [c]) /\
  (forall k k' w w' a a', nth_error (f_rows (get_results t)) k = Some w -> nth_error (f_rows (get_results t)) k' = Some w' ->
     nth_error arrows k = Some a -> nth_error arrows k' = Some a' ->
     visible (row_wl w) -> visible (row_wl w') -> (a_ink a = a_ink a' <-> row_wl w = row_wl w')).
Proof.
  intros asort gooch_of h junk v shaded bounds n t image extent arrows H.
  destruct (arrow_ink _ _ _ _ _ _ _ _ _ _ _ _ _ H) as (inks & RI & A). split.
  - intros k w K. destruct (A k w K) as (a & E & I). exists a, (colour default_gamma (row_wl w)). split; auto.
    rewrite (ink_wavelength _ _ _ _ _ RI K) in I. inversion I as [J]. split; auto. intros junk'.
    rewrite rgb_array by lra. reflexivity.
  - intros k k' w w' a a' K K' E E' V V'. destruct (A k w K) as (b & EB & I). destruct (A k' w' K') as (b' & EB' & I').
    assert (b = a) by congruence. assert (b' = a') by congruence. subst b b'.
    rewrite (ink_wavelength _ _ _ _ _ RI K) in I. rewrite (ink_wavelength _ _ _ _ _ RI K') in I'.
    assert (X : a_ink a = Ink (colour default_gamma (row_wl w))) by congruence.
    assert (X' : a_ink a' = Ink (colour default_gamma (row_wl w'))) by congruence. rewrite X, X'. split.
    + intros Q. assert (Q' : forall c d, Ink c = Ink d -> c = d) by (intros c d J; injection J; auto). apply Q' in Q.
      apply (colour_injective default_gamma); auto. unfold default_gamma. lra.
    + intros ->. auto.
Qed.
Lemma show_uniform : forall asort gooch_of h junk v shaded bounds n t image extent arrows,
  show asort gooch_of h junk v Uniform shaded bounds n t = Shown image extent (Some arrows) ->
  forall a, In a arrows -> a_ink a = C0.
Proof.
  intros asort gooch_of h junk v shaded bounds n t image extent arrows H a I.
  destruct (shown_inv _ _ _ _ _ _ _ _ _ _ _ _ _ H) as (inks & comps & ax & RI & _ & _ & _ & R).
  destruct (t_complete t); [|discriminate]. inversion R; subst arrows. apply in_map_iff in I. destruct I as ((w & i) & <- & I).
  apply in_combine_r in I. unfold row_inks in RI. cbv zeta in RI. inversion RI; subst inks. apply in_map_iff in I. destruct I as (x & <- & _).
  destruct ax; reflexivity.
Qed.
