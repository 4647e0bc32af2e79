(** * RenderFacts: facts about the camera and the pixel grid *)
From Coq Require Import Reals List Bool ZArith Lra Lia Psatz.
Import ListNotations.
From Verif Require Import XR XRFacts Arr Lin LinFacts Prim Csg Surf World Tracer Sources SpecGeom SpecTrace Render SpecRender.
Open Scope R_scope.

(** ** Grids *)
Lemma flat_grid_length : forall A B C (f : A -> B -> C) ys zs,
  length (flat_map (fun z => map (f z) ys) zs) = (length zs * length ys)%nat.
Proof. intros. induction zs; simpl; auto. rewrite app_length, map_length, IHzs. lia. Qed.
Lemma flat_grid_nth : forall A B C (f : A -> B -> C) ys zs i j z y,
  nth_error zs i = Some z -> nth_error ys j = Some y ->
  nth_error (flat_map (fun z => map (f z) ys) zs) (i * length ys + j) = Some (f z y).
Proof.
  intros A B C f ys zs. induction zs as [|z0 zs IH]; intros i j z y Z Y; [destruct i; discriminate|].
  assert (J : (j < length ys)%nat) by (apply nth_error_Some; congruence).
  destruct i as [|i]; simpl in *.
  - inversion Z; subst. rewrite nth_error_app1 by (rewrite map_length; auto). rewrite nth_error_map, Y. auto.
  - rewrite nth_error_app2 by (rewrite map_length; lia). rewrite map_length.
    replace (length ys + i * length ys + j - length ys)%nat with (i * length ys + j)%nat by lia. auto.
Qed.

Lemma linspace_length : forall a b n, length (linspace a b n) = n.
Proof. intros. unfold linspace. rewrite map_length, seq_length. auto. Qed.
Lemma linspace_nth : forall a b n i, (i < n)%nat -> nth_error (linspace a b n) i = Some (a + INR i * ((b - a) / INR (n - 1))).
Proof.
  intros. unfold linspace. rewrite nth_error_map.
  assert (E : nth_error (seq 0 n) i = Some i).
  { rewrite (nth_error_nth' (seq 0 n) O) by (rewrite seq_length; auto). rewrite seq_nth by auto. auto. }
  rewrite E. auto.
Qed.

Lemma collect_nth : forall A (l : list (option A)) r, collect l = Some r ->
  length r = length l /\ forall i x, nth_error l i = Some x -> exists y, x = Some y /\ nth_error r i = Some y.
Proof.
  induction l as [|[a|] l IH]; simpl; intros r E; try discriminate.
  - inversion E. split; auto. intros [|i] x; discriminate.
  - destruct (collect l) as [r'|]; [|discriminate]. inversion E; subst. destruct (IH r' eq_refl) as [L N].
    split; [simpl; auto|]. intros [|i] x X; simpl in *; [inversion X; eauto|eauto].
Qed.
Lemma collect_all : forall A (l : list (option A)), (forall x, In x l -> x <> None) -> exists r, collect l = Some r.
Proof.
  induction l as [|[a|] l IH]; simpl; intros H; [eauto| |destruct (H None); auto].
  destruct IH as [r ->]; eauto.
Qed.

(** ** The camera *)
Lemma cam_local_dir : forall c n r, In r (cam_local_rays c n) -> direction r = V4 1 0 0 0.
Proof.
  intros c n r I. unfold cam_local_rays in I. apply in_flat_map in I. destruct I as (z & _ & I).
  apply in_map_iff in I. destruct I as (y & <- & _). auto.
Qed.
Lemma cam_local_nth : forall c V i j, (i < V)%nat -> (j < cam_h_pixels c)%nat ->
  nth_error (cam_local_rays c V) (i * cam_h_pixels c + j) =
  Some (Ray (pixel_place (cam_h_width c) (cam_aspect c * cam_h_width c) (cam_h_pixels c) V i j) (V4 1 0 0 0)).
Proof.
  intros c V i j I J. unfold cam_local_rays.
  pose proof (linspace_nth (cam_h_width c / 2) (- cam_h_width c / 2) _ _ J) as NJ.
  pose proof (linspace_nth (cam_v_width c / 2) (- cam_v_width c / 2) _ _ I) as NI.
  pose proof (flat_grid_nth _ _ _ (fun z y => Ray (V4 0 y z 1) (V4 1 0 0 0)) _ _ _ _ _ _ NI NJ) as G.
  rewrite linspace_length in G. etransitivity; [exact G|].
  do 2 f_equal. unfold pixel_place, cam_v_width. apply v4_eq; cbn [vx vy vz vw]; auto.
  - replace (- cam_h_width c / 2 - cam_h_width c / 2) with (- cam_h_width c) by field. unfold Rdiv; ring.
  - set (w := cam_aspect c * cam_h_width c). replace (- w / 2 - w / 2) with (- w) by field. unfold Rdiv; ring.
Qed.
Lemma cam_local_length : forall c V, length (cam_local_rays c V) = (V * cam_h_pixels c)%nat.
Proof. intros. unfold cam_local_rays. rewrite (flat_grid_length _ _ _ (fun z y => Ray (V4 0 y z 1) (V4 1 0 0 0))), !linspace_length. auto. Qed.

Theorem camera_grid : forall c d, (0 <= cam_v_pixels c)%Z ->
  vnormalize (mapply (cam_world c) (V4 1 0 0 0)) = Some d ->
  let columns := cam_h_pixels c in
  let rows := Z.to_nat (cam_v_pixels c) in
  exists rays, cam_rays c = Some rays /\ length rays = (rows * columns)%nat /\
    forall i j, (i < rows)%nat -> (j < columns)%nat ->
    nth_error rays (i * columns + j) =
    Some (Ray (mapply (cam_world c) (pixel_place (cam_h_width c) (cam_aspect c * cam_h_width c) columns rows i j)) d).
Proof.
  intros c d V D columns rows. unfold cam_rays.
  destruct (Z.ltb_spec (cam_v_pixels c) 0); [lia|]. fold rows.
  destruct (collect_all _ (map (cam_place (cam_world c)) (cam_local_rays c rows))) as [rays E].
  { intros x X. apply in_map_iff in X. destruct X as (r & <- & R). unfold cam_place. rewrite (cam_local_dir _ _ _ R), D. discriminate. }
  rewrite E. exists rays. split; auto. destruct (collect_nth _ _ _ E) as [L N]. split.
  { rewrite L, map_length. apply cam_local_length. }
  intros i j I J. destruct (N (i * columns + j)%nat (Some (Ray (mapply (cam_world c) (pixel_place (cam_h_width c) (cam_aspect c * cam_h_width c) columns rows i j)) d))) as (y & Y1 & Y2).
  { rewrite nth_error_map. unfold columns. rewrite cam_local_nth by auto. cbn [option_map]. unfold cam_place. cbn [direction origin]. rewrite D. auto. }
  congruence.
Qed.

(** [int] *)
Lemma int_trunc_nonneg : forall x, 0 <= x -> (0 <= int_trunc x)%Z /\ IZR (int_trunc x) <= x < IZR (int_trunc x) + 1.
Proof.
  intros x X. unfold int_trunc. assert (E : rleb 0 x = true) by (apply rleb_true; auto). rewrite E.
  destruct (base_Int_part x) as [A B]. split; [|lra].
  assert (-1 < IZR (Int_part x)) by lra. apply lt_IZR in H. lia.
Qed.
Lemma int_trunc_neg : forall x, x < 0 -> (int_trunc x <= 0)%Z /\ x <= IZR (int_trunc x) < x + 1.
Proof.
  intros x X. unfold int_trunc. assert (E : rleb 0 x = false) by (apply rleb_false; auto). rewrite E.
  destruct (base_Int_part (- x)) as [A B]. rewrite opp_IZR. split; [|lra].
  assert (-1 < IZR (Int_part (- x))) by lra. apply lt_IZR in H. lia.
Qed.
