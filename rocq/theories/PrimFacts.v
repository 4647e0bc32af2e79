(** * PrimFacts: the intersection kernels are exact *)
From Coq Require Import Reals List Bool Lra Psatz.
Import ListNotations.
From Verif Require Import XR XRFacts Lin Ops Prim SpecGeom.
Open Scope R_scope.

(** ** Quadratic polynomials *)
Lemma quad_factor : forall a b c t, a <> 0 -> 0 <= b * b - 4 * a * c ->
  let s := sqrt (b * b - 4 * a * c) in
  a * t * t + b * t + c = a * (t - (- b - s) / (2 * a)) * (t - (- b + s) / (2 * a)).
Proof.
  intros a b c t Ha Hd s.
  assert (Hs : s * s = b * b - 4 * a * c) by (apply sqrt_sqrt; auto).
  replace (a * (t - (- b - s) / (2 * a)) * (t - (- b + s) / (2 * a)))
    with (a * t * t + b * t + (b * b - s * s) / (4 * a)) by (field; auto).
  rewrite Hs. field; auto.
Qed.

Lemma quad_roots_order : forall a b s, 0 < a -> 0 <= s -> (- b - s) / (2 * a) <= (- b + s) / (2 * a).
Proof.
  intros. unfold Rdiv. apply Rmult_le_compat_r; [|lra].
  left. apply Rinv_0_lt_compat. lra.
Qed.

Lemma quad_neg : forall a b c t, 0 < a -> 0 <= b * b - 4 * a * c ->
  let s := sqrt (b * b - 4 * a * c) in
  (a * t * t + b * t + c <= 0 <-> (- b - s) / (2 * a) <= t <= (- b + s) / (2 * a)).
Proof.
  intros a b c t Ha Hd s. unfold s. rewrite (quad_factor a b c t) by (auto; lra).
  pose proof (quad_roots_order a b _ Ha (sqrt_pos (b * b - 4 * a * c))) as O.
  set (x0 := (- b - sqrt (b * b - 4 * a * c)) / (2 * a)) in *.
  set (x1 := (- b + sqrt (b * b - 4 * a * c)) / (2 * a)) in *.
  clearbody x0 x1. split; intro H.
  - destruct (Rlt_dec t x0); [exfalso; assert (0 < (x0 - t) * (x1 - t)) by (apply Rmult_lt_0_compat; lra); nra|].
    destruct (Rlt_dec x1 t); [exfalso; assert (0 < (t - x0) * (t - x1)) by (apply Rmult_lt_0_compat; lra); nra|].
    lra.
  - assert (0 <= (t - x0) * (x1 - t)) by (apply Rmult_le_pos; lra). nra.
Qed.

Lemma quad_zero : forall a b c t, a <> 0 -> 0 <= b * b - 4 * a * c ->
  let s := sqrt (b * b - 4 * a * c) in
  (a * t * t + b * t + c = 0 <-> t = (- b - s) / (2 * a) \/ t = (- b + s) / (2 * a)).
Proof.
  intros a b c t Ha Hd s. unfold s. rewrite (quad_factor a b c t) by (auto; lra). split; intro H.
  - apply Rmult_integral in H. destruct H as [H|H]; [|right; lra].
    apply Rmult_integral in H. destruct H as [H|H]; [contradiction|left; lra].
  - destruct H as [-> | ->]; ring.
Qed.

Lemma quad_pos : forall a b c t, 0 < a -> b * b - 4 * a * c < 0 -> 0 < a * t * t + b * t + c.
Proof.
  intros. assert (0 < 4 * a * (a * t * t + b * t + c)).
  { replace (4 * a * (a * t * t + b * t + c)) with ((2 * a * t + b) * (2 * a * t + b) - (b * b - 4 * a * c)) by ring.
    pose proof (Rle_0_sqr (2 * a * t + b)). unfold Rsqr in *. lra. }
  nra.
Qed.

(** ** Sphere *)
Lemma sphere_hits_exact : forall rad r, moving r ->
  answers (snd (sphere_hits rad r), fst (sphere_hits rad r))
          (fun t => solid (PSphere rad) (ray_at r t)) /\
  (forall t, on_surface (PSphere rad) (ray_at r t) <->
             Fin t = fst (sphere_hits rad r) \/ Fin t = snd (sphere_hits rad r)).
Proof.
  intros rad [[ox oy oz ow] [dx dy dz dw]] M. unfold moving, sphere_hits, solid, on_surface, ray_at, answers in *.
  cbn [origin direction vx vy vz vw] in *.
  set (a := dx * dx + dy * dy + dz * dz).
  set (b := 2 * (dx * ox + dy * oy + dz * oz)).
  set (c := ox * ox + oy * oy + oz * oz - rad * rad).
  assert (Ha : 0 < a).
  { unfold a. destruct (Req_dec dx 0), (Req_dec dy 0), (Req_dec dz 0);
      try (exfalso; apply M; auto; fail); nra. }
  assert (Eq : forall t, (ox + t * dx) * (ox + t * dx) + (oy + t * dy) * (oy + t * dy) + (oz + t * dz) * (oz + t * dz) - rad * rad
               = a * t * t + b * t + c) by (intro; unfold a, b, c; ring).
  destruct (rleb 0 (b * b - 4 * a * c)) eqn:E; rhyps.
  - rewrite Rmax_right by auto. rewrite !xdiv_fin by lra. cbn [fst snd]. split.
    + left. do 2 eexists. split; [reflexivity|]. split; [apply quad_roots_order; auto; apply sqrt_pos|].
      intro t. rewrite <- quad_neg by auto. specialize (Eq t). split; lra.
    + intro t. specialize (Eq t). split.
      * intro H. assert (a * t * t + b * t + c = 0) by lra. apply quad_zero in H0; auto; try lra.
        destruct H0 as [-> | ->]; auto.
      * intros [H|H]; injection H as H; assert (a * t * t + b * t + c = 0) by (apply quad_zero; auto; lra); lra.
  - cbn [fst snd]. split.
    + right. split; auto. intros t. specialize (Eq t). pose proof (quad_pos a b c t Ha E). lra.
    + intro t. specialize (Eq t). pose proof (quad_pos a b c t Ha E). split; [lra|intros [?|?]; discriminate].
Qed.

(** ** Extended intervals *)
Definition in_iv (h : xr * xr) (t : R) : Prop :=
  xleb (fst h) (Fin t) = true /\ xleb (Fin t) (snd h) = true.

(** [h] (sorted, without nan) describes the set [S] *)
Definition describes (h : xr * xr) (S : R -> Prop) : Prop :=
  xleb (fst h) (snd h) = true /\ snd h <> MInf /\ forall t, S t <-> in_iv h t.

Lemma xleb_refl : forall a, a <> NaN -> xleb a a = true.
Proof. intros [] H; simpl; auto; try congruence. apply rleb_true; lra. Qed.

Lemma sort2_sorted : forall h, xleb (fst h) (snd h) = true -> sort2 h = h.
Proof.
  intros [[x| | |] [y| | |]]; unfold sort2; simpl; intros H; rewrite ?H; auto; discriminate.
Qed.

Lemma in_iv_empty : forall t, ~ in_iv (PInf, PInf) t.
Proof. intros t [H _]. discriminate. Qed.

Lemma xmax_le : forall a b t, a <> NaN -> b <> NaN ->
  (xleb (xmax a b) (Fin t) = true <-> xleb a (Fin t) = true /\ xleb b (Fin t) = true).
Proof.
  intros [x| | |] [y| | |] t Ha Hb; try congruence; simpl; rcases; simpl; rewrite ?rleb_true;
    split; intros; repeat split; try tauto; try discriminate; try lra; try (destruct H; discriminate);
    try (destruct H; rhyps; simpl; lra).
Qed.
Lemma xmin_ge : forall a b t, a <> NaN -> b <> NaN ->
  (xleb (Fin t) (xmin a b) = true <-> xleb (Fin t) a = true /\ xleb (Fin t) b = true).
Proof.
  intros [x| | |] [y| | |] t Ha Hb; try congruence; simpl; rcases; simpl; rewrite ?rleb_true;
    split; intros; repeat split; try tauto; try discriminate; try lra; try (destruct H; discriminate);
    try (destruct H; rhyps; simpl; lra).
Qed.

Lemma xleb_notnan : forall a b, xleb a b = true -> a <> NaN /\ b <> NaN.
Proof. intros [] []; simpl; intros; split; congruence. Qed.

Lemma xleb_trans_fin : forall a t b, xleb a (Fin t) = true -> xleb (Fin t) b = true -> xleb a b = true.
Proof.
  intros [x| | |] t [y| | |]; simpl; auto; try discriminate. intros; rhyps; apply rleb_true; lra.
Qed.

Lemma clip_describes : forall h1 h2 S1 S2, describes (sort2 h1) S1 -> describes (sort2 h2) S2 ->
  describes (clip_hits h1 h2) (fun t => S1 t /\ S2 t).
Proof.
  intros h1 h2 S1 S2 (O1 & M1 & D1) (O2 & M2 & D2). unfold clip_hits.
  destruct (sort2 h1) as [a0 a1], (sort2 h2) as [b0 b1]. cbn [fst snd] in *.
  destruct (xleb_notnan _ _ O1) as [N1 N2]. destruct (xleb_notnan _ _ O2) as [N3 N4].
  assert (Q : forall t, (S1 t /\ S2 t) <-> in_iv (xmax a0 b0, xmin a1 b1) t).
  { intro t. rewrite D1, D2. unfold in_iv; cbn [fst snd]. rewrite xmax_le, xmin_ge by auto. tauto. }
  destruct (xleb (xmax a0 b0) (xmin a1 b1)) eqn:E; (split; [auto|]); (split; [|auto]); try discriminate.
  { cbn [snd]. destruct a1, b1; simpl; try congruence; destruct (rleb _ _); congruence. }
  intro t. rewrite Q. unfold in_iv; cbn [fst snd]. split.
  - intros [H1 H2]. rewrite (xleb_trans_fin _ _ _ H1 H2) in E. discriminate.
  - intros [H _]. discriminate.
Qed.

Lemma z_clip_describes : forall lo hi oz dz, lo <= hi -> clear dz ->
  describes (sort2 (z_clip lo hi oz dz)) (fun t => lo <= oz + t * dz <= hi).
Proof.
  intros lo hi oz dz Hlh [->|Hd]; unfold z_clip.
  - rewrite isclose0_0. simpl andb. unfold b2r.
    destruct (rleb lo oz && rleb oz hi)%bool eqn:E.
    + rhyps. split; auto. split; [discriminate|]. intro t. unfold in_iv; simpl. split; auto. intros; lra.
    + split; auto. split; [discriminate|]. intro t. unfold in_iv; simpl. split; [|intros []; discriminate].
      intro H'. apply andb_false_iff in E. destruct E; rhyps; lra.
  - apply isclose0_false in Hd. rewrite Hd. simpl andb. unfold b2r.
    pose proof (isclose_false_neq _ Hd) as Hn. rewrite Rplus_0_r, !xdiv_fin by auto.
    rewrite sort2_fin. split; simpl fst; simpl snd.
    { simpl. apply rleb_true. unfold Rmin, Rmax; destruct (Rle_dec _ _); lra. }
    split; [discriminate|].
    intro t. unfold in_iv; simpl. rewrite !rleb_true.
    assert (E1 : (lo - oz) / dz = t - (oz + t * dz - lo) / dz) by (field; auto).
    assert (E2 : (hi - oz) / dz = t + (hi - (oz + t * dz)) / dz) by (field; auto).
    destruct (Rlt_dec 0 dz).
    + assert (0 < / dz) by (apply Rinv_0_lt_compat; auto).
      assert (L : (lo - oz) / dz <= (hi - oz) / dz) by (unfold Rdiv; apply Rmult_le_compat_r; lra).
      rewrite Rmin_left, Rmax_right by auto. rewrite E1, E2. unfold Rdiv. split; intros; split; nra.
    + assert (/ dz < 0) by (apply Rinv_lt_0_compat; lra).
      assert (L : (hi - oz) / dz <= (lo - oz) / dz) by (unfold Rdiv; nra).
      rewrite Rmin_right, Rmax_left by auto. rewrite E1, E2. unfold Rdiv. split; intros; split; nra.
Qed.

Lemma rmin_rmax_ord : forall a b, a <= b -> Rmin b a = a /\ Rmax b a = b.
Proof. intros; rewrite Rmin_right, Rmax_left by auto; auto. Qed.

Lemma sort2_sort2 : forall h, sort2 (sort2 h) = sort2 h.
Proof.
  intros [a b]. unfold sort2 at 2 3; cbn [fst snd].
  destruct (xsle a b) eqn:E; unfold sort2; cbn [fst snd]; [rewrite E; auto|].
  destruct (xsle_total a b) as [H|H]; [congruence|]. rewrite H; auto.
Qed.

Lemma binomial_describes : forall a b c, (a = 0 /\ b = 0) \/ atol < a ->
  describes (sort2 (binomial_root a b c)) (fun t => a * t * t + b * t + c <= 0).
Proof.
  intros a b c [[-> ->]|Ha]; unfold binomial_root.
  - rewrite isclose0_0. simpl andb. unfold b2r.
    destruct (rleb 0 (0 * 0 - 4 * 0 * c)); destruct (rleb c 0) eqn:E; rhyps; unfold describes, in_iv; simpl;
      (split; [auto|]); (split; [discriminate|]); intro t; (split; [intros; split; auto; lra|intros []; try discriminate; lra]).
  - pose proof atol_pos. assert (Hc : isclose a 0 = false).
    { apply isclose0_false. rewrite Rabs_right; lra. }
    rewrite Hc. simpl andb. unfold b2r. cbv iota. rewrite Rplus_0_r.
    destruct (rleb 0 (b * b - 4 * a * c)) eqn:E; rhyps.
    + rewrite Rmax_right by auto. rewrite !xdiv_fin by lra. rewrite sort2_fin.
      destruct (rmin_rmax_ord _ _ (quad_roots_order a b (sqrt (b * b - 4 * a * c)) ltac:(lra) (sqrt_pos _))) as [-> ->].
      split; simpl; [apply rleb_true, quad_roots_order; [lra|apply sqrt_pos]|].
      split; [discriminate|]. intro t. unfold in_iv; simpl. rewrite !rleb_true. apply quad_neg; auto; lra.
    + split; auto. split; [discriminate|]. intro t. unfold in_iv; simpl. pose proof (quad_pos a b c t ltac:(lra) E).
      split; [lra|intros []; discriminate].
Qed.


(** both ends finite, or the empty answer *)
Definition closed (h : xr * xr) : Prop :=
  (exists a b, h = (Fin a, Fin b)) \/ h = (PInf, PInf).

Lemma describes_answers : forall h S, describes h S -> closed h -> answers h S.
Proof.
  intros h S (O & _ & D) [(a & b & ->)| ->].
  - left. exists a, b. simpl in O. rhyps. split; [auto|split; [auto|]]. intro t.
    rewrite D. unfold in_iv. simpl. rewrite !rleb_true. tauto.
  - right. split; auto. intros t H. apply D in H. apply in_iv_empty in H. auto.
Qed.

Lemma clip_closed : forall h1 h2 S1 S2, describes (sort2 h1) S1 -> describes (sort2 h2) S2 ->
  closed (sort2 h1) \/ closed (sort2 h2) -> closed (clip_hits h1 h2).
Proof.
  intros h1 h2 S1 S2 (O1 & M1 & _) (O2 & M2 & _). unfold clip_hits, closed.
  destruct (sort2 h1) as [a0 a1], (sort2 h2) as [b0 b1]. cbn [fst snd] in *.
  destruct (xleb_notnan _ _ O1) as [N1 N2]. destruct (xleb_notnan _ _ O2) as [N3 N4].
  intros [[(x & y & E)|E]|[(x & y & E)|E]]; injection E as -> ->;
    destruct (xleb _ _) eqn:X; auto;
    try (destruct b0, b1); try (destruct a0, a1); simpl in *; try congruence; rcases; simpl in *;
    try congruence; try discriminate; eauto.
  all: match goal with |- context [rleb ?u ?v] => destruct (rleb u v); eauto end.
Qed.

Lemma z_clip_closed : forall lo hi oz dz, atol < Rabs dz -> closed (sort2 (z_clip lo hi oz dz)).
Proof.
  intros lo hi oz dz Hd. unfold z_clip. apply isclose0_false in Hd. rewrite Hd. simpl andb. unfold b2r.
  pose proof (isclose_false_neq _ Hd) as Hn. rewrite Rplus_0_r, !xdiv_fin, sort2_fin by auto.
  left; eauto.
Qed.

Lemma binomial_closed : forall a b c, atol < a -> closed (sort2 (binomial_root a b c)).
Proof.
  intros a b c Ha. pose proof atol_pos. unfold binomial_root. assert (Hc : isclose a 0 = false).
  { apply isclose0_false. rewrite Rabs_right; lra. }
  rewrite Hc. simpl andb. unfold b2r. cbv iota. rewrite Rplus_0_r.
  destruct (rleb 0 (b * b - 4 * a * c)) eqn:E; rhyps.
  - rewrite !xdiv_fin, sort2_fin by lra. left; eauto.
  - right; auto.
Qed.

Lemma sumsq_zero : forall x y, x * x + y * y = 0 -> x = 0 /\ y = 0.
Proof. intros; split; nra. Qed.

Lemma clear_sumsq : forall x y, clear (x * x + y * y) -> (x = 0 /\ y = 0) \/ atol < x * x + y * y.
Proof.
  intros x y [H|H]; [left; apply sumsq_zero; auto|right].
  rewrite Rabs_right in H; nra.
Qed.

(** ** Cylinder *)
Lemma cylinder_hits_exact : forall rad lo hi cap r, moving r -> lo <= hi ->
  clear_ray (PCylinder rad lo hi cap) r ->
  answers (cylinder_hits rad lo hi r) (fun t => solid (PCylinder rad lo hi cap) (ray_at r t)).
Proof.
  intros rad lo hi cap [[ox oy oz ow] [dx dy dz dw]] M Hlh [C1 C2].
  unfold moving, cylinder_hits, solid, ray_at in *. cbn [origin direction vx vy vz vw] in *.
  apply clear_sumsq in C1.
  set (a := dx * dx + dy * dy) in *.
  set (b := 2 * (dx * ox + dy * oy)).
  set (c := ox * ox + oy * oy - rad * rad).
  assert (D1 : describes (sort2 (sort2 (binomial_root a b c))) (fun t => a * t * t + b * t + c <= 0)).
  { rewrite sort2_sort2. apply binomial_describes. destruct C1 as [[-> ->]|C1]; [left|right; auto].
    unfold a, b; split; ring. }
  assert (D2 := z_clip_describes lo hi oz dz Hlh C2).
  assert (E : forall t, (ox + t * dx) * (ox + t * dx) + (oy + t * dy) * (oy + t * dy) - rad * rad
               = a * t * t + b * t + c) by (intro; unfold a, b, c; ring).
  destruct (describes_answers (clip_hits (sort2 (binomial_root a b c)) (z_clip lo hi oz dz))
    (fun t => a * t * t + b * t + c <= 0 /\ lo <= oz + t * dz <= hi)) as [A|A].
  - apply clip_describes; auto.
  - eapply clip_closed; eauto. rewrite sort2_sort2.
    destruct C1 as [[-> ->]|C1]; [right|left; apply binomial_closed; auto].
    apply z_clip_closed. destruct C2 as [->|C2]; auto. exfalso; apply M; auto.
  - left. destruct A as (t0 & t1 & A1 & A2 & A3). exists t0, t1. repeat split; auto.
    + apply A3. rewrite <- E. lra.
    + apply A3. rewrite <- E. lra.
    + apply A3 in H. rewrite <- E in H. lra.
    + apply A3 in H. rewrite <- E in H. lra.
    + apply A3 in H. rewrite <- E in H. lra.
  - right. destruct A as [A1 A2]. split; auto. intros t H. apply (A2 t). rewrite <- E. lra.
Qed.

(** ** Paraboloid *)
Lemma parabola_describes : forall f r, 0 < f -> moving r ->
  clear_ray (PParaboloid f 1) r ->
  describes (parabola_hits f r)
    (fun t => vx (ray_at r t) * vx (ray_at r t) + vy (ray_at r t) * vy (ray_at r t) <= 4 * f * vz (ray_at r t)) /\
  (atol < vx (direction r) * vx (direction r) + vy (direction r) * vy (direction r) -> closed (parabola_hits f r)).
Proof.
  intros f [[ox oy oz ow] [dx dy dz dw]] Hf M (C1 & C2 & C3).
  unfold moving, parabola_hits, ray_at in *. cbn [origin direction vx vy vz vw] in *.
  apply clear_sumsq in C1. pose proof atol_pos.
  set (a := dx * dx + dy * dy) in *.
  set (b := 2 * (ox * dx + oy * dy) - 4 * f * dz).
  set (c := ox * ox + oy * oy - 4 * f * oz).
  assert (E : forall t, (ox + t * dx) * (ox + t * dx) + (oy + t * dy) * (oy + t * dy) - 4 * f * (oz + t * dz)
               = a * t * t + b * t + c) by (intro; unfold a, b, c; ring).
  assert (D : forall h, describes h (fun t => a * t * t + b * t + c <= 0) ->
    describes h (fun t => (ox + t * dx) * (ox + t * dx) + (oy + t * dy) * (oy + t * dy) <= 4 * f * (oz + t * dz))).
  { intros h (O & Mi & Dd). split; auto. split; auto. intro t. rewrite <- Dd, <- E. split; lra. }
  destruct C1 as [[-> ->]|C1].
  - assert (Ea : a = 0) by (unfold a; ring). split; [|intro; lra].
    apply D; clear D E. rewrite Ea, isclose0_0.
    destruct C2 as [->|C2]; [exfalso; apply M; auto|].
    assert (Eb : b = - (4 * f * dz)) by (unfold b; ring).
    assert (Hdz : dz <> 0). { intro; subst. rewrite Rabs_R0 in C2. lra. }
    assert (Hb : isclose b 0 = false).
    { apply isclose0_false. rewrite Eb, Rabs_Ropp. destruct C3 as [C3|C3]; auto.
      exfalso. apply Rmult_integral in C3. destruct C3; [lra|auto]. }
    rewrite Hb. unfold b2r.
    assert (Hbn := isclose_false_neq _ Hb).
    cut (describes (sort2 (xdiv (Fin (- c)) (Fin (b + 0)), if rleb 0 dz then PInf else MInf))
                   (fun t => 0 * t * t + b * t + c <= 0)).
    { intro L. destruct (rleb 0 (b * b - 4 * 0 * c)); exact L. }
    rewrite Rplus_0_r, xdiv_fin by auto.
    assert (X : forall t, - c / b = t - (b * t + c) / b) by (intro; field; auto).
    destruct (rleb 0 dz) eqn:Z; rhyps.
    + (* going up *) unfold sort2; simpl. assert (b < 0) by (rewrite Eb; nra).
      assert (/ b < 0) by (apply Rinv_lt_0_compat; auto).
      split; auto. split; [discriminate|]. intro t. unfold in_iv; simpl. rewrite rleb_true, (X t).
      unfold Rdiv. split; [intro; split; auto; nra|intros [? _]; nra].
    + unfold sort2; simpl. assert (0 < b) by (rewrite Eb; nra).
      assert (0 < / b) by (apply Rinv_0_lt_compat; auto).
      split; auto. split; [discriminate|]. intro t. unfold in_iv; simpl. rewrite rleb_true, (X t).
      unfold Rdiv. split; [intro; split; auto; nra|intros [_ ?]; nra].
  - assert (Hc : isclose a 0 = false).
    { apply isclose0_false. rewrite Rabs_right; lra. }
    rewrite Hc. unfold b2r. rewrite Rplus_0_r.
    destruct (rleb 0 (b * b - 4 * a * c)) eqn:Ed; rhyps.
    + rewrite Rmax_right by auto. rewrite !xdiv_fin by lra. rewrite sort2_fin.
      destruct (rmin_rmax_ord _ _ (quad_roots_order a b (sqrt (b * b - 4 * a * c)) ltac:(lra) (sqrt_pos _))) as [-> ->].
      split; [|intros _; left; eauto]. apply D.
      split; simpl; [apply rleb_true, quad_roots_order; [lra|apply sqrt_pos]|].
      split; [discriminate|]. intro t. unfold in_iv; simpl. rewrite !rleb_true. apply quad_neg; auto; lra.
    + split; [|intros _; right; auto]. apply D. split; auto. split; [discriminate|]. intro t. unfold in_iv; simpl. pose proof (quad_pos a b c t ltac:(lra) Ed).
      split; [lra|intros []; discriminate].
Qed.

Lemma paraboloid_hits_exact : forall f h r, moving r -> 0 < f -> 0 < h ->
  clear_ray (PParaboloid f h) r ->
  answers (paraboloid_hits f h r) (fun t => solid (PParaboloid f h) (ray_at r t)).
Proof.
  intros f h r M Hf Hh C. destruct (parabola_describes f r Hf M C) as [D1 K].
  destruct C as (C1 & C2 & C3). unfold paraboloid_hits.
  assert (D2 := z_clip_describes 0 h (vz (origin r)) (vz (direction r)) ltac:(lra) C2).
  assert (S : sort2 (parabola_hits f r) = parabola_hits f r) by (apply sort2_sorted, D1).
  rewrite <- S in D1, K.
  apply describes_answers.
  - exact (clip_describes _ _ _ _ D1 D2).
  - eapply clip_closed; eauto.
    apply clear_sumsq in C1. destruct C1 as [[X Y]|C1]; [right|left; auto].
    apply z_clip_closed. destruct C2 as [Z|C2]; auto. exfalso; apply M; auto.
Qed.
