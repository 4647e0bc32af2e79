(** * PrimFacts2: cube and plane kernels; hits lie on the surface *)
From Coq Require Import Reals List Bool Lra Psatz.
Import ListNotations.
From Verif Require Import XR XRFacts Lin Ops Prim SpecGeom PrimFacts.
Open Scope R_scope.

Lemma div_interval_pos : forall lo hi o d t, 0 < d ->
  ((lo - o) / d <= t <= (hi - o) / d <-> lo <= o + t * d <= hi).
Proof.
  intros. assert (0 < / d) by (apply Rinv_0_lt_compat; auto).
  assert (E1 : (lo - o) / d = t - (o + t * d - lo) / d) by (field; lra).
  assert (E2 : (hi - o) / d = t + (hi - (o + t * d)) / d) by (field; lra).
  rewrite E1, E2. unfold Rdiv. split; intros; split; nra.
Qed.
Lemma div_interval_neg : forall lo hi o d t, d < 0 ->
  ((hi - o) / d <= t <= (lo - o) / d <-> lo <= o + t * d <= hi).
Proof.
  intros. assert (/ d < 0) by (apply Rinv_lt_0_compat; auto).
  assert (E1 : (lo - o) / d = t - (o + t * d - lo) / d) by (field; lra).
  assert (E2 : (hi - o) / d = t + (hi - (o + t * d)) / d) by (field; lra).
  rewrite E1, E2. unfold Rdiv. split; intros; split; nra.
Qed.

Lemma div_le_pos : forall a b d, 0 < d -> a <= b -> a / d <= b / d.
Proof. intros. unfold Rdiv. apply Rmult_le_compat_r; auto. left; apply Rinv_0_lt_compat; auto. Qed.
Lemma div_le_neg : forall a b d, d < 0 -> a <= b -> b / d <= a / d.
Proof. intros. unfold Rdiv. assert (/ d < 0) by (apply Rinv_lt_0_compat; auto). nra. Qed.

(** the sorted pair of hits with two parallel planes *)
Lemma slab_describes : forall lo hi o d, lo <= hi -> d <> 0 ->
  describes (sort2 (Fin ((lo - o) / d), Fin ((hi - o) / d))) (fun t => lo <= o + t * d <= hi).
Proof.
  intros lo hi o d H Hd. rewrite sort2_fin. split; [|split].
  - simpl. apply rleb_true. unfold Rmin, Rmax; destruct (Rle_dec _ _); lra.
  - discriminate.
  - intro t. unfold in_iv; simpl. rewrite !rleb_true.
    destruct (Rlt_dec 0 d).
    + pose proof (div_le_pos (lo - o) (hi - o) d r ltac:(lra)).
      rewrite Rmin_left, Rmax_right by auto. rewrite <- (div_interval_pos lo hi) by auto. tauto.
    + assert (d < 0) by lra. pose proof (div_le_neg (lo - o) (hi - o) d H0 ltac:(lra)).
      rewrite Rmin_right, Rmax_left by auto. rewrite <- (div_interval_neg lo hi) by auto. tauto.
Qed.

Lemma describes_ext : forall h S S', describes h S -> (forall t, S t <-> S' t) -> describes h S'.
Proof. intros h S S' (A & B & C) H. split; auto. split; auto. intro t. rewrite <- H; auto. Qed.

(** ** Cube *)
Lemma cube_axis_describes : forall lo hi o d, lo <= hi -> clear d ->
  describes (cube_axis_hits (Fin lo, Fin hi) o d) (fun t => lo <= o + t * d <= hi).
Proof.
  intros lo hi o d H [->|Hd]; unfold cube_axis_hits.
  - rewrite isclose0_0. simpl negb. cbv iota. cbn [xleb].
    destruct (rleb o hi) eqn:E1; destruct (rleb lo o) eqn:E2; rhyps; simpl andb; cbv iota;
      (split; [reflexivity|split; [discriminate|]]); intro t; unfold in_iv; simpl;
      (split; [intros; split; auto; exfalso; lra|intros []; try discriminate; lra]).
  - apply isclose0_false in Hd. rewrite Hd. simpl negb. cbv iota. unfold b2r. rewrite Rplus_0_r.
    cbn [xopp xsub xadd]. pose proof (isclose_false_neq _ Hd) as Hn. rewrite !xdiv_fin by auto.
    replace (- (o + - lo)) with (lo - o) by ring. replace (- (o + - hi)) with (hi - o) by ring.
    apply slab_describes; auto.
Qed.

Lemma cube_axis_closed : forall lo hi o d, atol < Rabs d -> closed (cube_axis_hits (Fin lo, Fin hi) o d).
Proof.
  intros lo hi o d Hd. unfold cube_axis_hits. apply isclose0_false in Hd. rewrite Hd. simpl negb. cbv iota.
  unfold b2r. rewrite Rplus_0_r.
  cbn [xopp xsub xadd]. pose proof (isclose_false_neq _ Hd) as Hn. rewrite !xdiv_fin, sort2_fin by auto.
  left; eauto.
Qed.

(** combining three described axes, as cube_hits does *)
Definition meet (h1 h2 : xr * xr) : xr * xr := (xmax (fst h1) (fst h2), xmin (snd h1) (snd h2)).

Lemma xmax_nan : forall a b, a <> NaN -> b <> NaN -> xmax a b <> NaN.
Proof. intros [] []; simpl; intros; try congruence; destruct (rleb _ _); congruence. Qed.
Lemma xmin_nan : forall a b, a <> NaN -> b <> NaN -> xmin a b <> NaN.
Proof. intros [] []; simpl; intros; try congruence; destruct (rleb _ _); congruence. Qed.

(** like [describes] without the order of the ends *)
Definition spans (h : xr * xr) (S : R -> Prop) : Prop :=
  fst h <> NaN /\ snd h <> NaN /\ snd h <> MInf /\ forall t, S t <-> in_iv h t.

Lemma describes_spans : forall h S, describes h S -> spans h S.
Proof. intros h S (A & B & C). destruct (xleb_notnan _ _ A). unfold spans. auto. Qed.

Lemma meet_spans : forall h1 h2 S1 S2, spans h1 S1 -> spans h2 S2 -> spans (meet h1 h2) (fun t => S1 t /\ S2 t).
Proof.
  intros [a0 a1] [b0 b1] S1 S2 (N1 & N2 & M1 & D1) (N3 & N4 & M2 & D2). unfold meet; cbn [fst snd] in *.
  split; [apply xmax_nan; auto|]. split; [apply xmin_nan; auto|]. split.
  - cbn [fst snd]. destruct a1, b1; simpl; try congruence; destruct (rleb _ _); congruence.
  - intro t. rewrite D1, D2. unfold in_iv; cbn [fst snd]. rewrite xmax_le, xmin_ge by auto. tauto.
Qed.

(** finite or plus infinite lower end, finite upper end *)
Definition bounded_lo (x : xr) : Prop := x <> MInf /\ x <> NaN.
Definition bounded_hi (x : xr) : Prop := x <> PInf /\ x <> NaN.

(** The kind of answer the cube gives: a proper interval, or inf although the
    set may still be a single point. *)
Definition answers_thick (h : xr * xr) (S : R -> Prop) : Prop :=
  (exists t0 t1, h = (Fin t0, Fin t1) /\ t0 < t1 /\ forall t, S t <-> t0 <= t <= t1) \/
  (h = (PInf, PInf) /\ forall t t', S t -> S t' -> t = t').

Definition fin_box (x0 x1 y0 y1 z0 z1 : R) : box := Box (Fin x0, Fin x1) (Fin y0, Fin y1) (Fin z0, Fin z1).

Lemma thick_of_spans : forall lo hi S, spans (lo, hi) S -> lo <> MInf -> hi <> PInf \/ lo = PInf ->
  answers_thick (if xltb lo hi then (lo, hi) else (PInf, PInf)) S.
Proof.
  intros lo hi S (N1 & N2 & M1 & D) L U. cbn [fst snd] in *.
  destruct (xltb lo hi) eqn:E.
  - left. destruct lo as [x| | |], hi as [y| | |]; simpl in E; try discriminate; try congruence;
      try (destruct U; congruence). rhyps. exists x, y. split; auto. split; auto. intro t. rewrite D.
    unfold in_iv; simpl. rewrite !rleb_true. tauto.
  - right. split; auto. intros t t' H1 H2. apply D in H1. apply D in H2. unfold in_iv in *; cbn [fst snd] in *.
    destruct lo as [x| | |], hi as [y| | |]; simpl in *; try discriminate; try (destruct H1; discriminate); try congruence.
    rhyps. destruct H1, H2. rhyps. lra.
Qed.

Lemma closed_meet : forall h1 h2 S1 S2, spans h1 S1 -> spans h2 S2 -> closed h1 \/ closed h2 ->
  fst (meet h1 h2) <> MInf /\ (snd (meet h1 h2) <> PInf \/ fst (meet h1 h2) = PInf).
Proof.
  intros [a0 a1] [b0 b1] S1 S2 (N1 & N2 & M1 & _) (N3 & N4 & M2 & _) [[(x & y & E)|E]|[(x & y & E)|E]];
    injection E as -> ->; unfold meet; cbn [fst snd] in *;
    try (destruct b0, b1); try (destruct a0, a1); simpl; try congruence; rcases; split; try congruence;
    try (right; congruence); try (left; congruence).
Qed.

Lemma meet_assoc_closed : forall h1 h2 h3 S1 S2 S3, spans h1 S1 -> spans h2 S2 -> spans h3 S3 ->
  closed h1 \/ closed h2 \/ closed h3 ->
  fst (meet (meet h1 h2) h3) <> MInf /\ (snd (meet (meet h1 h2) h3) <> PInf \/ fst (meet (meet h1 h2) h3) = PInf).
Proof.
  intros h1 h2 h3 S1 S2 S3 D1 D2 D3 C.
  destruct C as [C|[C|C]].
  - destruct (closed_meet h1 h2 S1 S2 D1 D2 (or_introl C)) as [L U].
    pose proof (meet_spans _ _ _ _ D1 D2) as (N1 & N2 & M & _). destruct D3 as (N3 & N4 & M3 & _).
    destruct (meet h1 h2) as [a0 a1], h3 as [b0 b1]. unfold meet; cbn [fst snd] in *.
    destruct a0, a1, b0, b1; simpl; try congruence; try (destruct U; congruence); rcases; split; try congruence;
    try (right; congruence); try (left; congruence).
  - destruct (closed_meet h1 h2 S1 S2 D1 D2 (or_intror C)) as [L U].
    pose proof (meet_spans _ _ _ _ D1 D2) as (N1 & N2 & M & _). destruct D3 as (N3 & N4 & M3 & _).
    destruct (meet h1 h2) as [a0 a1], h3 as [b0 b1]. unfold meet; cbn [fst snd] in *.
    destruct a0, a1, b0, b1; simpl; try congruence; try (destruct U; congruence); rcases; split; try congruence;
    try (right; congruence); try (left; congruence).
  - exact (closed_meet _ _ _ _ (meet_spans _ _ _ _ D1 D2) D3 (or_intror C)).
Qed.

Lemma cube_hits_exact : forall x0 x1 y0 y1 z0 z1 r,
  x0 <= x1 -> y0 <= y1 -> z0 <= z1 -> moving r ->
  clear (vx (direction r)) -> clear (vy (direction r)) -> clear (vz (direction r)) ->
  answers_thick (cube_hits (fin_box x0 x1 y0 y1 z0 z1) r)
    (fun t => x0 <= vx (ray_at r t) <= x1 /\ y0 <= vy (ray_at r t) <= y1 /\ z0 <= vz (ray_at r t) <= z1).
Proof.
  intros x0 x1 y0 y1 z0 z1 [[ox oy oz ow] [dx dy dz dw]] Hx Hy Hz M Cx Cy Cz.
  unfold moving, ray_at, cube_hits, fin_box in *. cbn [origin direction vx vy vz vw spanx spany spanz] in *.
  pose proof (cube_axis_describes x0 x1 ox dx Hx Cx) as Dx.
  pose proof (cube_axis_describes y0 y1 oy dy Hy Cy) as Dy.
  pose proof (cube_axis_describes z0 z1 oz dz Hz Cz) as Dz.
  assert (K : closed (cube_axis_hits (Fin x0, Fin x1) ox dx) \/ closed (cube_axis_hits (Fin y0, Fin y1) oy dy)
              \/ closed (cube_axis_hits (Fin z0, Fin z1) oz dz)).
  { destruct Cx as [->|Cx]; [|left; apply cube_axis_closed; auto].
    destruct Cy as [->|Cy]; [|right; left; apply cube_axis_closed; auto].
    destruct Cz as [->|Cz]; [|right; right; apply cube_axis_closed; auto].
    exfalso; apply M; auto. }
  apply describes_spans in Dx. apply describes_spans in Dy. apply describes_spans in Dz.
  destruct (meet_assoc_closed _ _ _ _ _ _ Dx Dy Dz K) as [L U].
  pose proof (meet_spans _ _ _ _ (meet_spans _ _ _ _ Dx Dy) Dz) as D.
  destruct (cube_axis_hits (Fin x0, Fin x1) ox dx) as [a0 a1].
  destruct (cube_axis_hits (Fin y0, Fin y1) oy dy) as [b0 b1].
  destruct (cube_axis_hits (Fin z0, Fin z1) oz dz) as [c0 c1].
  unfold meet in *; cbn [fst snd] in *.
  destruct (thick_of_spans _ _ _ D L U) as [(t0 & t1 & E & Lt & Q)|[E Q]].
  - left. exists t0, t1. split; auto. split; auto. intro t. rewrite <- Q. tauto.
  - right. split; auto. intros t t' H1 H2. apply Q; tauto.
Qed.

(** a box with an empty axis is never hit *)
Lemma cube_axis_empty : forall o d,
  cube_axis_hits (PInf, PInf) o d = (PInf, PInf) \/ cube_axis_hits (PInf, PInf) o d = (MInf, MInf).
Proof.
  intros o d. unfold cube_axis_hits. simpl. destruct (isclose d 0) eqn:E; auto.
  pose proof (isclose_false_neq _ E). simpl. unfold b2r. rewrite Rplus_0_r.
  destruct (Req_EM_T d 0); [contradiction|]. unfold inf_sign.
  destruct (Rlt_dec 0 d); auto. destruct (Rlt_dec d 0); auto. lra.
Qed.

(** a ray that goes nowhere never gets a finite hit *)
Lemma cube_axis_still : forall span o, fst span <> NaN -> snd span <> NaN ->
  cube_axis_hits span o 0 = (MInf, PInf) \/ cube_axis_hits span o 0 = (PInf, PInf).
Proof.
  intros [lo hi] o N1 N2. unfold cube_axis_hits. rewrite isclose0_0. simpl negb. cbv iota.
  destruct (_ && _)%bool; auto.
Qed.

(** ** Plane *)
Lemma plane_axis_describes : forall dim o d, 0 <= dim -> clear d ->
  describes (plane_axis_hits dim o d) (fun t => Rabs (o + t * d) <= dim / 2).
Proof.
  intros dim o d H Hd.
  assert (X : forall x, Rabs x <= dim / 2 <-> - (dim / 2) <= x <= dim / 2).
  { intro x. split; intro; [unfold Rabs in *; destruct (Rcase_abs x); lra|apply Rabs_le; auto]. }
  eapply describes_ext; [|intro t; symmetry; apply X].
  unfold plane_axis_hits. destruct Hd as [->|Hd].
  - rewrite isclose0_0. destruct (rleb (Rabs o) (dim / 2)) eqn:E; rhyps.
    + apply X in E. split; [reflexivity|split; [discriminate|]]. intro t. unfold in_iv; simpl.
      split; auto. intros; lra.
    + split; [reflexivity|split; [discriminate|]]. intro t. unfold in_iv; simpl.
      split; [|intros []; discriminate]. intro H1. exfalso.
      assert (- (dim / 2) <= o <= dim / 2) as Q by lra. apply X in Q. lra.
  - apply isclose0_false in Hd. rewrite Hd. unfold b2r. rewrite Rplus_0_r.
    pose proof (isclose_false_neq _ Hd) as Hn. rewrite !xdiv_fin by auto.
    replace (- (o - dim / 2)) with (dim / 2 - o) by ring.
    replace (- (o + dim / 2)) with (- (dim / 2) - o) by ring.
    pose proof (slab_describes (- (dim / 2)) (dim / 2) o d ltac:(lra) Hn) as D.
    rewrite sort2_fin in *. rewrite Rmin_comm, Rmax_comm. exact D.
Qed.

Lemma sort2_max : forall a b, a <> NaN -> b <> NaN -> snd (sort2 (a, b)) = xmax a b.
Proof.
  intros [x| | |] [y| | |] Ha Hb; try congruence; unfold sort2; simpl; auto; rcases; auto.
Qed.
Lemma sort2_min : forall a b, a <> NaN -> b <> NaN -> fst (sort2 (a, b)) = xmin a b.
Proof.
  intros [x| | |] [y| | |] Ha Hb; try congruence; unfold sort2; simpl; auto; rcases; auto.
Qed.

Lemma plane_hits_exact : forall w l r, 0 <= w -> 0 <= l ->
  clear_ray (PPlane w l) r ->
  (vz (direction r) <> 0 ->
   answers (plane_hits w l r) (fun t => solid (PPlane w l) (ray_at r t))) /\
  (vz (direction r) = 0 -> plane_hits w l r = (PInf, PInf)).
Proof.
  intros w l [[ox oy oz ow] [dx dy dz dw]] Hw Hl (Cx & Cy & Cz).
  unfold plane_hits, solid, ray_at. cbn [origin direction vx vy vz vw] in *.
  pose proof (plane_axis_describes w ox dx Hw Cx) as Dx.
  pose proof (plane_axis_describes l oy dy Hl Cy) as Dy.
  destruct (plane_axis_hits w ox dx) as [x0 x1], (plane_axis_hits l oy dy) as [y0 y1].
  apply describes_spans in Dx. apply describes_spans in Dy.
  pose proof (meet_spans _ _ _ _ Dx Dy) as (N1 & N2 & _ & D).
  destruct Dx as (Nx0 & Nx1 & _ & _), Dy as (Ny0 & Ny1 & _ & _). cbn [fst snd meet] in *.
  rewrite sort2_max, sort2_min by auto. split.
  - intro Hz. destruct Cz as [|Cz]; [contradiction|].
    apply isclose0_false in Cz. rewrite Cz. unfold b2r. rewrite Rplus_0_r, xdiv_fin by auto.
    assert (U : forall t, oz + t * dz = 0 <-> t = - oz / dz).
    { intro t; split; intro H; [apply (Rmult_eq_reg_r dz); auto; field_simplify; auto; lra|subst; field; auto]. }
    destruct (xleb (xmax x0 y0) (Fin (- oz / dz)) && xleb (Fin (- oz / dz)) (xmin x1 y1))%bool eqn:E.
    + left. do 2 eexists. split; [reflexivity|]. split; [lra|]. intro t. rewrite U.
      apply andb_true_iff in E. split.
      * intros (_ & _ & ->). lra.
      * intro H. assert (t = - oz / dz) by lra. subst t. destruct (proj2 (D (- oz / dz)) E). auto.
    + right. split; auto. intros t (H1 & H2 & H3). apply U in H3. subst t.
      destruct (proj1 (D (- oz / dz)) (conj H1 H2)) as [A B]. unfold meet in A, B. cbn [fst snd] in A, B. rewrite A, B in E. discriminate.
  - intros ->. rewrite isclose0_0. destruct (_ && _)%bool; auto.
Qed.

(** ** The hits lie on the surface *)
Lemma clip_ends : forall h1 h2 t, 
  (fst (clip_hits h1 h2) = Fin t -> fst (sort2 h1) = Fin t \/ fst (sort2 h2) = Fin t) /\
  (snd (clip_hits h1 h2) = Fin t -> snd (sort2 h1) = Fin t \/ snd (sort2 h2) = Fin t).
Proof.
  intros h1 h2 t. unfold clip_hits. destruct (sort2 h1) as [a0 a1], (sort2 h2) as [b0 b1].
  destruct (xleb _ _); cbn [fst snd]; split; intro H; try discriminate.
  - destruct a0, b0; simpl in *; try discriminate; auto; destruct (rleb _ _); auto.
  - destruct a1, b1; simpl in *; try discriminate; auto; destruct (rleb _ _); auto.
Qed.

Lemma sort2_in : forall a b, (fst (sort2 (a, b)) = a \/ fst (sort2 (a, b)) = b) /\
                             (snd (sort2 (a, b)) = a \/ snd (sort2 (a, b)) = b).
Proof. intros. unfold sort2; cbn [fst snd]. destruct (xsle a b); cbn [fst snd]; auto. Qed.

Lemma z_clip_ends : forall lo hi oz dz t, 
  fst (z_clip lo hi oz dz) = Fin t \/ snd (z_clip lo hi oz dz) = Fin t ->
  oz + t * dz = lo \/ oz + t * dz = hi.
Proof.
  intros lo hi oz dz t. unfold z_clip. destruct (isclose dz 0) eqn:E.
  - destruct (_ && _)%bool; cbn [fst snd]; intros [H|H]; discriminate.
  - pose proof (isclose_false_neq _ E). unfold b2r. rewrite Rplus_0_r, !xdiv_fin by auto. simpl andb. cbv iota. cbn [fst snd].
    intros [H0|H0]; injection H0 as <-; [left|right]; field; auto.
Qed.

Lemma binomial_ends : forall a b c t, (a = 0 /\ b = 0) \/ atol < a ->
  fst (binomial_root a b c) = Fin t \/ snd (binomial_root a b c) = Fin t -> a * t * t + b * t + c = 0.
Proof.
  intros a b c t [[-> ->]|Ha]; unfold binomial_root.
  - rewrite isclose0_0. simpl andb. unfold b2r.
    destruct (rleb 0 (0 * 0 - 4 * 0 * c)); destruct (rleb c 0); simpl; intros [H|H]; discriminate.
  - pose proof atol_pos. assert (Hc : isclose a 0 = false).
    { apply isclose0_false. rewrite Rabs_right; lra. }
    rewrite Hc. simpl andb. unfold b2r. cbv iota. rewrite Rplus_0_r.
    destruct (rleb 0 (b * b - 4 * a * c)) eqn:E; rhyps.
    + rewrite Rmax_right, !xdiv_fin by lra. cbn [fst snd]. 
      intros [H0|H0]; injection H0 as <-; apply quad_zero; auto; lra.
    + intros [H0|H0]; discriminate.
Qed.

Definition ends (h : xr * xr) (t : R) : Prop := fst h = Fin t \/ snd h = Fin t.
Lemma ends_sort2 : forall h t, ends (sort2 h) t -> ends h t.
Proof. intros [a b] t. unfold ends, sort2; cbn [fst snd]. destruct (xsle a b); cbn [fst snd]; tauto. Qed.
Lemma ends_sort2' : forall h t, ends h t -> ends (sort2 h) t.
Proof. intros [a b] t. unfold ends, sort2; cbn [fst snd]. destruct (xsle a b); cbn [fst snd]; tauto. Qed.
Lemma ends_clip : forall h1 h2 t, ends (clip_hits h1 h2) t -> ends h1 t \/ ends h2 t.
Proof.
  intros h1 h2 t H. destruct (clip_ends h1 h2 t) as [A B].
  destruct H as [H|H]; [destruct (A H)|destruct (B H)]; [left|right|left|right]; apply ends_sort2; unfold ends; auto.
Qed.

Lemma answers_ends : forall h S t, answers h S -> ends h t -> S t.
Proof.
  intros h S t [(t0 & t1 & -> & L & Q)|[-> _]] [H|H]; cbn [fst snd] in H; try discriminate;
    injection H as ->; apply Q; lra.
Qed.

Lemma cylinder_hits_surface : forall rad lo hi cap r t, moving r -> lo <= hi ->
  clear_ray (PCylinder rad lo hi cap) r ->
  ends (cylinder_hits rad lo hi r) t -> on_surface (PCylinder rad lo hi cap) (ray_at r t).
Proof.
  intros rad lo hi cap r t M Hlh C H.
  pose proof (answers_ends _ _ _ (cylinder_hits_exact rad lo hi cap r M Hlh C) H) as S.
  split; auto. unfold cylinder_hits in H. apply ends_clip in H. destruct H as [H|H].
  - left. apply ends_sort2 in H. apply binomial_ends in H.
    + unfold ray_at; cbn [vx vy vz]. destruct r as [[ox oy oz ow] [dx dy dz dw]]; cbn [origin direction vx vy vz] in *. nra.
    + destruct C as [C _]. apply clear_sumsq in C. destruct C as [[-> ->]|C]; [left; split; ring|right; auto].
  - right. apply z_clip_ends in H. unfold ray_at; cbn [vz]. tauto.
Qed.

Lemma paraboloid_hits_surface : forall f h r t, moving r -> 0 < f -> 0 < h ->
  clear_ray (PParaboloid f h) r ->
  ends (paraboloid_hits f h r) t -> on_surface (PParaboloid f h) (ray_at r t).
Proof.
  intros f h r t M Hf Hh C H.
  pose proof (answers_ends _ _ _ (paraboloid_hits_exact f h r M Hf Hh C) H) as S.
  split; auto. unfold paraboloid_hits in H. apply ends_clip in H. destruct H as [H|H].
  - left. unfold parabola_hits in H. destruct C as (C1 & C2 & C3).
    apply clear_sumsq in C1. pose proof atol_pos.
    unfold moving, ray_at in *. destruct r as [[ox oy oz ow] [dx dy dz dw]]; cbn [origin direction vx vy vz] in *.
    set (a := dx * dx + dy * dy) in *.
    set (b := 2 * (ox * dx + oy * dy) - 4 * f * dz) in *.
    set (c := ox * ox + oy * oy - 4 * f * oz) in *.
    assert (E : (ox + t * dx) * (ox + t * dx) + (oy + t * dy) * (oy + t * dy) - 4 * f * (oz + t * dz)
               = a * t * t + b * t + c) by (unfold a, b, c; ring).
    cut (a * t * t + b * t + c = 0); [lra|].
    destruct C1 as [[-> ->]|C1].
    + assert (Ea : a = 0) by (unfold a; ring). rewrite Ea in *. rewrite isclose0_0 in H.
      destruct C2 as [->|C2]; [exfalso; apply M; auto|].
      assert (Eb : b = - (4 * f * dz)) by (unfold b; ring).
      assert (Hdz : dz <> 0). { intro; subst. rewrite Rabs_R0 in C2. lra. }
      assert (Hb : isclose b 0 = false).
      { apply isclose0_false. rewrite Eb, Rabs_Ropp. destruct C3 as [C3|C3]; auto.
        exfalso. apply Rmult_integral in C3. destruct C3; [lra|auto]. }
      rewrite Hb in H. unfold b2r in H.
      assert (Hbn := isclose_false_neq _ Hb). rewrite (Rplus_0_r b) in H.
      assert (H' : ends (xdiv (Fin (- c)) (Fin b), if rleb 0 dz then PInf else MInf) t).
      { destruct (rleb 0 (b * b - 4 * 0 * c)); apply ends_sort2 in H; exact H. }
      rewrite xdiv_fin in H' by auto. destruct H' as [H'|H']; cbn [fst snd] in H'.
      * injection H' as <-. field; auto.
      * destruct (rleb 0 dz); discriminate.
    + assert (Hc : isclose a 0 = false).
      { apply isclose0_false. rewrite Rabs_right; lra. }
      rewrite Hc in H. unfold b2r in H. rewrite Rplus_0_r in H.
      destruct (rleb 0 (b * b - 4 * a * c)) eqn:Ed; rhyps; apply ends_sort2 in H.
      * rewrite Rmax_right, !xdiv_fin in H by lra.
        destruct H as [H|H]; cbn [fst snd] in H; injection H as <-; apply quad_zero; auto; lra.
      * destruct H as [H|H]; discriminate.
  - destruct (z_clip_ends _ _ _ _ _ H) as [Z|Z].
    + left. destruct S as [S1 S2]. unfold ray_at in *; cbn [vx vy vz] in *. rewrite Z in S1 |- *. apply Rle_antisym; [lra|]. rewrite Rmult_0_r. apply Rplus_le_le_0_compat; apply Rle_0_sqr.
    + right. unfold ray_at; cbn [vz]. auto.
Qed.

Lemma cube_hits_surface : forall c0 c1 r t, moving r -> clear_ray (PCube c0 c1) r ->
  ends (cube_hits (cube_box (fin3 c0) (fin3 c1)) r) t -> on_surface (PCube c0 c1) (ray_at r t).
Proof.
  intros [[x0 y0] z0] [[x1 y1] z1] r t M C H.
  assert (EB : cube_box (fin3 (x0, y0, z0)) (fin3 (x1, y1, z1)) =
    fin_box (Rmin x0 x1) (Rmax x0 x1) (Rmin y0 y1) (Rmax y0 y1) (Rmin z0 z1) (Rmax z0 z1)).
  { unfold cube_box, fin3. rewrite !sort2_fin. reflexivity. }
  rewrite EB in H. destruct C as (Cx & Cy & Cz).
  assert (MM : forall a b, Rmin a b <= Rmax a b).
  { intros; unfold Rmin, Rmax; destruct (Rle_dec a b); lra. }
  split.
  - destruct (cube_hits_exact (Rmin x0 x1) (Rmax x0 x1) (Rmin y0 y1) (Rmax y0 y1) (Rmin z0 z1) (Rmax z0 z1) r
        (MM _ _) (MM _ _) (MM _ _) M Cx Cy Cz) as [(t0 & t1 & E & L & Q)|[E Q]]; rewrite E in H.
    + unfold solid, between. apply Q. destruct H as [H|H]; injection H as <-; lra.
    + destruct H as [H|H]; discriminate.
  - (* the end point comes from one axis *)
    assert (A : forall a b o d, ends (cube_axis_hits (Fin (Rmin a b), Fin (Rmax a b)) o d) t -> o + t * d = a \/ o + t * d = b).
    { intros a b o d K. unfold cube_axis_hits in K. apply ends_sort2 in K.
      destruct (isclose d 0) eqn:E.
      - simpl negb in K. cbv iota in K. destruct (_ && _)%bool; destruct K as [K|K]; discriminate.
      - pose proof (isclose_false_neq _ E). simpl negb in K. cbv iota in K. unfold b2r in K. rewrite Rplus_0_r in K.
        cbn [xopp xsub xadd] in K. rewrite !xdiv_fin in K by auto.
        unfold Rmin, Rmax in K. destruct (Rle_dec a b); destruct K as [K|K]; cbn [fst snd] in K; injection K as <-;
        [left|right|right|left]; field; auto. }
    unfold cube_hits, fin_box in H. cbn [spanx spany spanz] in H. unfold ray_at; cbn [vx vy vz].
    specialize (A) as Ax.
    pose proof (A x0 x1 (vx (origin r)) (vx (direction r))) as A1.
    pose proof (A y0 y1 (vy (origin r)) (vy (direction r))) as A2.
    pose proof (A z0 z1 (vz (origin r)) (vz (direction r))) as A3.
    destruct (cube_axis_hits (Fin (Rmin x0 x1), Fin (Rmax x0 x1)) _ _) as [a0 a1].
    destruct (cube_axis_hits (Fin (Rmin y0 y1), Fin (Rmax y0 y1)) _ _) as [b0 b1].
    destruct (cube_axis_hits (Fin (Rmin z0 z1), Fin (Rmax z0 z1)) _ _) as [d0 d1].
    assert (XM : forall u v, xmax u v = Fin t -> u = Fin t \/ v = Fin t).
    { intros [] []; simpl; intros; try discriminate; auto; destruct (rleb _ _); auto. }
    assert (Xm : forall u v, xmin u v = Fin t -> u = Fin t \/ v = Fin t).
    { intros [] []; simpl; intros; try discriminate; auto; destruct (rleb _ _); auto. }
    unfold ends in *. cbn [fst snd] in *.
    destruct (xltb _ _); cbn [fst snd] in H; destruct H as [H|H]; try discriminate.
    + apply XM in H. destruct H as [H|H]; [apply XM in H; destruct H as [H|H]|]; auto.
    + apply Xm in H. destruct H as [H|H]; [apply Xm in H; destruct H as [H|H]|]; auto.
Qed.

Lemma plane_hits_surface : forall w l r t, 0 <= w -> 0 <= l -> clear_ray (PPlane w l) r ->
  ends (plane_hits w l r) t -> on_surface (PPlane w l) (ray_at r t).
Proof.
  intros w l r t Hw Hl C H. destruct (plane_hits_exact w l r Hw Hl C) as [A B].
  destruct (Req_dec (vz (direction r)) 0) as [E|E].
  - rewrite (B E) in H. destruct H; discriminate.
  - exact (answers_ends _ _ _ (A E) H).
Qed.

Lemma sphere_hits_surface : forall rad r t, moving r ->
  ends (sphere_hits rad r) t -> on_surface (PSphere rad) (ray_at r t).
Proof.
  intros rad r t M H. destruct (sphere_hits_exact rad r M) as [_ Q]. apply Q.
  destruct H as [H|H]; rewrite H; auto.
Qed.

Lemma prim_hits_surface : forall p r t, prim_ok p -> moving r -> clear_ray p r ->
  ends (prim_hits p r) t -> on_surface p (ray_at r t).
Proof.
  intros [rad|rad lo hi cap|c0 c1|f h|w l] r t OK M C H; simpl prim_hits in H; simpl in OK.
  - apply sphere_hits_surface; auto.
  - apply cylinder_hits_surface; tauto.
  - apply cube_hits_surface; auto.
  - apply paraboloid_hits_surface; tauto.
  - apply plane_hits_surface; tauto.
Qed.

Lemma cube_prim_exact : forall x0 x1 y0 y1 z0 z1 r,
  moving r -> clear_ray (PCube (x0, y0, z0) (x1, y1, z1)) r ->
  let hits := prim_hits (PCube (x0, y0, z0) (x1, y1, z1)) r in
  let S t := solid (PCube (x0, y0, z0) (x1, y1, z1)) (ray_at r t) in
  answers_thick hits S.
Proof.
  intros x0 x1 y0 y1 z0 z1 r M (Cx & Cy & Cz) hits S. unfold hits, S. cbn [prim_hits fin3 cube_box].
  rewrite !sort2_fin.
  assert (MM : forall a b, Rmin a b <= Rmax a b).
  { intros; unfold Rmin, Rmax; destruct (Rle_dec a b); lra. }
  exact (cube_hits_exact _ _ _ _ _ _ r (MM x0 x1) (MM y0 y1) (MM z0 z1) M Cx Cy Cz).
Qed.

(** ** The cylinder's tolerance band *)
(** an almost axial ray whose hits are both taken from the linear equation -c/b *)
Definition steep_ray : ray := Ray (point (1/2) 0 (-5)) (vector (1/20000) 0 1).

Lemma steep_ray_missed : cylinder_hits 1 (-1) 1 steep_ray = (PInf, PInf).
Proof.
  unfold cylinder_hits, steep_ray, point, vector. cbn [origin direction vx vy vz].
  unfold binomial_root.
  assert (Ha : isclose (1 / 20000 * (1 / 20000) + 0 * 0) 0 = true).
  { apply isclose0_true. unfold atol. rewrite Rabs_right; lra. }
  assert (Hb : isclose (2 * (1 / 20000 * (1 / 2) + 0 * 0)) 0 = false).
  { apply isclose0_false. unfold atol. rewrite Rabs_right; lra. }
  rewrite Ha, Hb. simpl andb. cbv iota.
  assert (Hq : reqb (2 * (1 / 20000 * (1 / 2) + 0 * 0)) 0 = false) by (apply reqb_false; lra).
  rewrite Hq. unfold b2r. rewrite !xdiv_fin by lra.
  unfold z_clip. assert (Hz : isclose 1 0 = false).
  { apply isclose0_false. unfold atol. rewrite Rabs_right; lra. }
  rewrite Hz. simpl andb. unfold b2r. rewrite !xdiv_fin by lra. cbv iota.
  unfold clip_hits. match goal with |- context [rleb 0 ?x] => destruct (rleb 0 x) end; rewrite !sort2_fin, xmax_fin, xmin_fin;
    (match goal with |- context [xleb (Fin ?a) (Fin ?b)] => assert (K : xleb (Fin a) (Fin b) = false) end;
     [cbn [xleb]; apply rleb_false; unfold Rmin, Rmax; repeat destruct (Rle_dec _ _); lra | rewrite K; auto]).
Qed.
Lemma steep_ray_inside : forall t, 4 <= t <= 6 -> solid (PCylinder 1 (-1) 1 true) (ray_at steep_ray t).
Proof. intros t H. unfold solid, steep_ray, ray_at, point, vector; cbn [origin direction vx vy vz]. split; nra. Qed.

Lemma plane_prim_exact : forall w l r,
  0 <= w -> 0 <= l -> clear_ray (PPlane w l) r ->
  (vz (direction r) <> 0 ->
   answers (prim_hits (PPlane w l) r) (fun t => solid (PPlane w l) (ray_at r t)) /\
   fst (prim_hits (PPlane w l) r) = snd (prim_hits (PPlane w l) r)) /\
  (vz (direction r) = 0 -> prim_hits (PPlane w l) r = (PInf, PInf)).
Proof.
  intros w l r Hw Hl C. destruct (plane_hits_exact w l r Hw Hl C) as [A B]. split; auto.
  intro H. split; [apply A; auto|]. cbn [prim_hits]. unfold plane_hits.
  destruct (plane_axis_hits w _ _), (plane_axis_hits l _ _). reflexivity.
Qed.
