(** * BoxFacts: a surface's bounding box contains the placed primitive *)
From Coq Require Import Reals List Bool Lra Psatz.
Import ListNotations.
From Verif Require Import XR XRFacts Lin LinFacts Prim Surf SpecGeom SpecTree SpanFacts CsgProps.
Open Scope R_scope.

Lemma fold_min_le : forall l x, fold_left Rmin l x <= x /\ forall y, In y l -> fold_left Rmin l x <= y.
Proof.
  induction l as [|a l IH]; intro x; simpl; [split; [lra|tauto]|].
  destruct (IH (Rmin x a)) as [A B]. pose proof (Rmin_l x a); pose proof (Rmin_r x a). split; [lra|].
  intros y [<-|H1]; [lra|auto].
Qed.
Lemma fold_max_ge : forall l x, x <= fold_left Rmax l x /\ forall y, In y l -> y <= fold_left Rmax l x.
Proof.
  induction l as [|a l IH]; intro x; simpl; [split; [lra|tauto]|].
  destruct (IH (Rmax x a)) as [A B]. pose proof (Rmax_l x a); pose proof (Rmax_r x a). split; [lra|].
  intros y [<-|H1]; [lra|auto].
Qed.
Lemma list_min_le : forall l y, In y l -> list_min l <= y.
Proof. intros [|x l] y H; [destruct H|]. simpl. destruct (fold_min_le l x) as [A B]. destruct H as [<-|H]; auto. Qed.
Lemma list_max_ge : forall l y, In y l -> y <= list_max l.
Proof. intros [|x l] y H; [destruct H|]. simpl. destruct (fold_max_ge l x) as [A B]. destruct H as [<-|H]; auto. Qed.

Lemma fold_min_in : forall l x, fold_left Rmin l x = x \/ In (fold_left Rmin l x) l.
Proof.
  induction l as [|a l IH]; intro x; simpl; auto.
  destruct (IH (Rmin x a)) as [E|E]; auto. rewrite E. unfold Rmin; destruct (Rle_dec x a); auto.
Qed.
Lemma fold_max_in : forall l x, fold_left Rmax l x = x \/ In (fold_left Rmax l x) l.
Proof.
  induction l as [|a l IH]; intro x; simpl; auto.
  destruct (IH (Rmax x a)) as [E|E]; auto. rewrite E. unfold Rmax; destruct (Rle_dec x a); auto.
Qed.
Lemma list_min_in : forall l, l <> [] -> In (list_min l) l.
Proof. intros [|x l] H; [congruence|]. simpl. destruct (fold_min_in l x) as [E|E]; [rewrite E|]; auto. Qed.
Lemma list_max_in : forall l, l <> [] -> In (list_max l) l.
Proof. intros [|x l] H; [congruence|]. simpl. destruct (fold_max_in l x) as [E|E]; [rewrite E|]; auto. Qed.
Lemma list_min_max : forall l, l <> [] -> list_min l <= list_max l.
Proof. intros l H. apply list_max_ge, list_min_in; auto. Qed.

(** a linear function on a cuboid is bounded by its values at the corners *)
Lemma lin_extreme : forall k lo hi x, lo <= x <= hi ->
  (k * x <= k * lo \/ k * x <= k * hi) /\ (k * lo <= k * x \/ k * hi <= k * x).
Proof. intros k lo hi x H. destruct (Rle_dec 0 k); split; [right|left|left|right]; nra. Qed.

Definition in_corners (c0 c1 : R * R * R) (p : v4) : Prop :=
  let '(x0, y0, z0) := c0 in let '(x1, y1, z1) := c1 in
  between x0 x1 (vx p) /\ between y0 y1 (vy p) /\ between z0 z1 (vz p).

Lemma corner_extreme : forall c0 c1 (row p : v4), vw p = 1 -> in_corners c0 c1 p ->
  (exists c, In c (corner_points c0 c1) /\ vdot row p <= vdot row c) /\
  (exists c, In c (corner_points c0 c1) /\ vdot row c <= vdot row p).
Proof.
  intros [[x0 y0] z0] [[x1 y1] z1] [a b c d] [px py pz pw] Hw (Hx & Hy & Hz).
  unfold between in *. cbn [vx vy vz vw] in *. subst pw.
  destruct (lin_extreme a _ _ _ Hx) as [Ux Lx], (lin_extreme b _ _ _ Hy) as [Uy Ly], (lin_extreme c _ _ _ Hz) as [Uz Lz].
  assert (K : forall ex ey ez, In ex [Rmin x0 x1; Rmax x0 x1] -> In ey [Rmin y0 y1; Rmax y0 y1] -> In ez [Rmin z0 z1; Rmax z0 z1] ->
     In (point ex ey ez) (corner_points (x0, y0, z0) (x1, y1, z1))).
  { intros ex ey ez Ix Iy Iz. unfold corner_points. apply in_flat_map. exists ex. split; auto.
    apply in_flat_map. exists ey. split; auto. apply in_map_iff. exists ez. auto. }
  split.
  - assert (exists ex, In ex [Rmin x0 x1; Rmax x0 x1] /\ a * px <= a * ex) as (ex & Ix & Ex)
      by (destruct Ux; [exists (Rmin x0 x1)|exists (Rmax x0 x1)]; simpl; auto).
    assert (exists ey, In ey [Rmin y0 y1; Rmax y0 y1] /\ b * py <= b * ey) as (ey & Iy & Ey)
      by (destruct Uy; [exists (Rmin y0 y1)|exists (Rmax y0 y1)]; simpl; auto).
    assert (exists ez, In ez [Rmin z0 z1; Rmax z0 z1] /\ c * pz <= c * ez) as (ez & Iz & Ez)
      by (destruct Uz; [exists (Rmin z0 z1)|exists (Rmax z0 z1)]; simpl; auto).
    exists (point ex ey ez). split; auto. unfold vdot, point; cbn [vx vy vz vw]. lra.
  - assert (exists ex, In ex [Rmin x0 x1; Rmax x0 x1] /\ a * ex <= a * px) as (ex & Ix & Ex)
      by (destruct Lx; [exists (Rmin x0 x1)|exists (Rmax x0 x1)]; simpl; auto).
    assert (exists ey, In ey [Rmin y0 y1; Rmax y0 y1] /\ b * ey <= b * py) as (ey & Iy & Ey)
      by (destruct Ly; [exists (Rmin y0 y1)|exists (Rmax y0 y1)]; simpl; auto).
    assert (exists ez, In ez [Rmin z0 z1; Rmax z0 z1] /\ c * ez <= c * pz) as (ez & Iz & Ez)
      by (destruct Lz; [exists (Rmin z0 z1)|exists (Rmax z0 z1)]; simpl; auto).
    exists (point ex ey ez). split; auto. unfold vdot, point; cbn [vx vy vz vw]. lra.
Qed.

Lemma btw : forall lo hi x, lo <= x <= hi -> between lo hi x.
Proof. intros lo hi x H. unfold between. rewrite Rmin_left, Rmax_right by lra. auto. Qed.

Lemma sq_le_abs : forall x r, x * x <= r * r -> - Rabs r <= x <= Rabs r.
Proof.
  intros x r H. apply Rsqr_le_abs_0 in H. pose proof (Rle_abs x). pose proof (Rle_abs (- x)).
  rewrite Rabs_Ropp in *. lra.
Qed.
Lemma between_sq : forall x r, x * x <= r * r -> between (- r) r x.
Proof.
  intros x r H. apply sq_le_abs in H. unfold between, Rmin, Rmax, Rabs in *.
  destruct (Rcase_abs r); destruct (Rle_dec (- r) r); lra.
Qed.

(** the local solid lies in the box of the primitive's corners *)
Lemma solid_in_corners : forall p q, prim_ok p -> solid p q ->
  in_corners (fst (prim_corners p)) (snd (prim_corners p)) q.
Proof.
  intros [r|r lo hi cap|[[x0 y0] z0] [[x1 y1] z1]|f h|w l] q OK S; simpl in *.
  - repeat split; apply between_sq; nra.
  - destruct S as [S1 S2]. repeat split; try (apply between_sq; nra); apply btw; auto.
  - exact S.
  - destruct S as [S1 S2]. destruct OK as [Hf Hh].
    assert (0 <= 4 * f * h) by nra.
    assert (vx q * vx q + vy q * vy q <= sqrt (4 * f * h) * sqrt (4 * f * h)).
    { rewrite sqrt_sqrt by auto. nra. }
    repeat split; try (apply between_sq; nra); apply btw; auto.
  - destruct S as (S1 & S2 & S3). destruct OK. 
    repeat split; unfold between.
    + rewrite Rmin_left by lra. pose proof (Rle_abs (- vx q)). rewrite Rabs_Ropp in *. lra.
    + rewrite Rmax_right by lra. pose proof (Rle_abs (vx q)). lra.
    + rewrite Rmin_left by lra. pose proof (Rle_abs (- vy q)). rewrite Rabs_Ropp in *. lra.
    + rewrite Rmax_right by lra. pose proof (Rle_abs (vy q)). lra.
    + rewrite Rmin_left by lra. lra.
    + rewrite Rmax_right by lra. lra.
Qed.

Lemma bounding_points_alt : forall p, bounding_points p = corner_points (fst (prim_corners p)) (snd (prim_corners p)).
Proof. intro p. unfold bounding_points. destruct (prim_corners p); auto. Qed.
Lemma bounding_points_nonempty : forall p, bounding_points p <> [].
Proof. intro p. rewrite bounding_points_alt. destruct (prim_corners p) as [[[x0 y0] z0] [[x1 y1] z1]]. discriminate. Qed.

Lemma sort2_span : forall l, l <> [] -> sort2 (Fin (list_min l), Fin (list_max l)) = (Fin (list_min l), Fin (list_max l)).
Proof. intros l H. rewrite sort2_fin. pose proof (list_min_max l H). rewrite Rmin_left, Rmax_right; auto. Qed.

Lemma bounding_box_spans : forall pts, pts <> [] ->
  bounding_box pts = Box (Fin (list_min (map vx pts)), Fin (list_max (map vx pts)))
                         (Fin (list_min (map vy pts)), Fin (list_max (map vy pts)))
                         (Fin (list_min (map vz pts)), Fin (list_max (map vz pts))).
Proof.
  intros pts H. unfold bounding_box, cube_box.
  assert (N : forall f : v4 -> R, map f pts <> []) by (intros f E; apply map_eq_nil in E; contradiction).
  rewrite !sort2_span by auto. auto.
Qed.

Lemma bounding_box_vbox : forall pts, pts <> [] -> vbox (bounding_box pts).
Proof.
  intros pts H. rewrite bounding_box_spans by auto.
  assert (N : forall f : v4 -> R, map f pts <> []) by (intros f E; apply map_eq_nil in E; contradiction).
  repeat split; left; do 2 eexists; split; try reflexivity; apply list_min_max; auto.
Qed.

Lemma surf_box_vbox : forall p m, vbox (surf_box p m).
Proof.
  intros p m. apply bounding_box_vbox. intro E. apply map_eq_nil in E. exact (bounding_points_nonempty p E).
Qed.

Lemma surf_box_contains : forall s q, prim_ok (s_prim s) -> placed s q ->
  in_box (surf_box (s_prim s) (s_world s)) q.
Proof.
  intros s q OK (p & Hw & S & <-). unfold surf_box. rewrite bounding_box_spans.
  2:{ intro E. apply map_eq_nil in E. exact (bounding_points_nonempty _ E). }
  apply solid_in_corners in S; auto.
  assert (K : forall (f : v4 -> R) row, (forall v, f (mapply (s_world s) v) = vdot row v) ->
     in_span (Fin (list_min (map f (map (mapply (s_world s)) (bounding_points (s_prim s))))),
              Fin (list_max (map f (map (mapply (s_world s)) (bounding_points (s_prim s)))))) (f (mapply (s_world s) p))).
  { intros f row Hf. destruct (corner_extreme _ _ row p Hw S) as [(c & Ic & Hc) (c' & Ic' & Hc')].
    rewrite <- bounding_points_alt in Ic, Ic'.
    unfold in_span; cbn [fst snd xleb]; rewrite !rleb_true. rewrite Hf. split.
    - eapply Rle_trans; [|exact Hc']. rewrite <- Hf. apply list_min_le. apply in_map, in_map; auto.
    - eapply Rle_trans; [exact Hc|]. rewrite <- Hf. apply list_max_ge. apply in_map, in_map; auto. }
  split; [|split]; cbn [spanx spany spanz].
  - apply (K vx (row0 (s_world s))); reflexivity.
  - apply (K vy (row1 (s_world s))); reflexivity.
  - apply (K vz (row2 (s_world s))); reflexivity.
Qed.

(** each face of the box is touched by a placed corner *)
Lemma surf_box_tight : forall p m,
  exists x0 x1 y0 y1 z0 z1,
  surf_box p m = Box (Fin x0, Fin x1) (Fin y0, Fin y1) (Fin z0, Fin z1) /\
  let cs := map (mapply m) (bounding_points p) in
  In x0 (map vx cs) /\ In x1 (map vx cs) /\ In y0 (map vy cs) /\ In y1 (map vy cs) /\
  In z0 (map vz cs) /\ In z1 (map vz cs).
Proof.
  intros p m. unfold surf_box.
  assert (H : map (mapply m) (bounding_points p) <> []).
  { intro E. apply map_eq_nil in E. exact (bounding_points_nonempty p E). }
  rewrite bounding_box_spans by auto. do 6 eexists. split; [reflexivity|].
  assert (N : forall f : v4 -> R, map f (map (mapply m) (bounding_points p)) <> []) by (intros f E; apply map_eq_nil in E; contradiction).
  cbv zeta. repeat split; try apply list_min_in; try apply list_max_in; auto.
Qed.
