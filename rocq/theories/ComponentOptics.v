(** * ComponentOptics: surfaces of components as rays see them *)
From Coq Require Import Reals Lra Lia List Bool ZArith Psatz.
Import ListNotations.
From Verif Require Import XR XRFacts Arr Lin LinFacts Ops OpsFacts SpecOptics Prim Csg Surf SpecGeom SpecTree CsgProps SpanFacts BoxFacts TreeFacts SurfFacts
  World SpecWorld WorldFacts3 WorldFacts5 WorldProps Tracer SpecTrace FirstHit Components SpecComponents BuildFacts ComponentFacts ComponentFacts2 ComponentFacts3.
Open Scope R_scope.

Lemma built_more : forall asort o (P Q : shape -> Prop), (forall s, tree_ok s -> boxes_current s -> P s -> Q s) -> built asort o P -> built asort o Q.
Proof.
  intros asort o P Q I (prog & l & E & B). exists prog, l. split; [exact E|]. intros h N.
  destruct (B h N) as (h' & s & R & Sh & TO & BC & K). exists h', s. auto 10.
Qed.

(** ** Turned transforms *)
Definition tw (u v c : R) : mat := M4 (V4 0 0 1 c) (V4 1 0 0 u) (V4 0 1 0 v) (V4 0 0 0 1).
Definition tobj (u v c : R) : mat := M4 (V4 0 1 0 (- u)) (V4 0 0 1 (- v)) (V4 1 0 0 (- c)) (V4 0 0 0 1).
Lemma tw_eq : forall u v c, mmul rx90 (mmul ry90 (mmove u v c)) = tw u v c.
Proof.
  intros. unfold rx90, ry90, mmove, tw, mmul, mapply, mtrans, vdot; cbn [vx vy vz vw row0 row1 row2 row3]. repeat f_equal; ring.
Qed.
Lemma tw_inverse : forall u v c, is_inverse (tw u v c) (tobj u v c).
Proof.
  intros. split; unfold tw, tobj, mid, mmul, mapply, mtrans, vdot; cbn [vx vy vz vw row0 row1 row2 row3]; repeat f_equal; ring.
Qed.
Lemma inverse_unique : forall a b c, is_inverse a b -> is_inverse a c -> b = c.
Proof.
  intros a b c [A1 A2] [C1 C2]. unfold is_inverse in *.
  assert (X : mmul (mmul b a) c = mmul b (mmul a c)) by (rewrite mmul_assoc; reflexivity).
  first [rewrite A2, C1, mmul_mid_l, mmul_mid_r in X | rewrite A1, C2, mmul_mid_l, mmul_mid_r in X]; congruence.
Qed.
Lemma tobj_pt : forall u v c x y z, mapply (tobj u v c) (pt x y z) = pt (y - u) (z - v) (x - c).
Proof. intros. unfold pt, tobj, mapply, vdot; cbn [vx vy vz vw row0 row1 row2 row3]. f_equal; ring. Qed.
Lemma tobj_vec : forall u v c x y z, mapply (tobj u v c) (V4 x y z 0) = V4 y z x 0.
Proof. intros. unfold tobj, mapply, vdot; cbn [vx vy vz vw row0 row1 row2 row3]. f_equal; ring. Qed.

(** [f] is the primitive [p] turned and moved, with the given material and side *)
Definition turned_surf (f : surf) (p : prim) (m : material) (u v c k : R) : Prop :=
  s_prim f = p /\ s_mat f = m /\ s_obj f = tobj u v c /\ s_nscale f = k.
Lemma turned_placed : forall f p m u v c k x y z, surf_ok f -> turned_surf f p m u v c k ->
  (placed f (pt x y z) <-> solid p (pt (y - u) (z - v) (x - c))).
Proof.
  intros f p m u v c k x y z OK (<- & _ & O & _). rewrite placed_local by (auto; reflexivity). rewrite O, tobj_pt. reflexivity.
Qed.
Lemma turned_normal : forall f p m u v c k x y z n, turned_surf f p m u v c k ->
  prim_normal p (pt (y - u) (z - v) (x - c)) = Some n -> vw n = 0 -> unit n ->
  world_normal f (pt x y z) = Some (V4 (k * vz n) (k * vx n) (k * vy n) 0).
Proof.
  intros f p m u v c k x y z [a b d w] (<- & _ & O & <-) N W U. cbn [vw vx vy vz] in *. subst w.
  unfold world_normal. rewrite O, tobj_pt, N.
  assert (E : vset_w (mapply (mtrans (tobj u v c)) (V4 a b d 0)) 0 = V4 d a b 0).
  { unfold vset_w, tobj, mapply, mtrans, vdot; cbn [vx vy vz vw row0 row1 row2 row3]. f_equal; ring. }
  rewrite E. assert (UU : vdot (V4 d a b 0) (V4 d a b 0) = 1) by (unfold unit, vdot in *; cbn [vx vy vz vw] in *; lra).
  rewrite (vnormalize_unit _ UU). unfold vscale; cbn [vx vy vz vw]. f_equal. f_equal. ring.
Qed.
Lemma erase_leaf : forall s p m u v c k, erase s = TLeaf p m (tw u v c) k -> tree_ok s ->
  exists f b, s = Leaf f b /\ turned_surf f p m u v c k /\ surf_ok f.
Proof.
  intros [f b|i op b l r] p m u v c k E T; simpl in E; [|discriminate]. injection E as E1 E2 E3 E4. exists f, b.
  split; [reflexivity|]. split; [|exact T]. split; [exact E1|]. split; [exact E2|]. split; [|exact E4].
  simpl in T. destruct T as (_ & _ & I). rewrite E3 in I. eapply inverse_unique; [exact I|apply tw_inverse].
Qed.
Lemma erase_diff : forall s A B, erase s = TNode DIFFERENCE A B -> exists i b l r, s = Node i DIFFERENCE b l r /\ erase l = A /\ erase r = B.
Proof. intros [f b|i op b l r] A B E; simpl in E; [discriminate|]. injection E as -> E1 E2. eauto 8. Qed.

(** ** Rays *)
Lemma ray_pt : forall x y z dx dy dz t, ray_at (Ray (pt x y z) (V4 dx dy dz 0)) t = pt (x + t * dx) (y + t * dy) (z + t * dz).
Proof. intros. unfold ray_at, pt; cbn [origin direction vx vy vz vw]. f_equal; ring. Qed.
Lemma forward_pt : forall c t x y z dx dy dz, c_ray c = Ray (pt x y z) (V4 dx dy dz 0) ->
  c_ray (forward t c) = Ray (pt (x + t * dx) (y + t * dy) (z + t * dz)) (V4 dx dy dz 0).
Proof.
  intros c t x y z dx dy dz E. unfold forward. cbn [with_ray c_ray]. rewrite E. cbn [origin direction]. f_equal.
  unfold vadd, vscale, pt; cbn [vx vy vz vw]. f_equal; ring.
Qed.

(** ** A hole dug into a part: the first hit is on the wall of the hole *)
Section Dug.
  Variable asort : list xr -> list nat.
  Hypothesis AS : argsort_ok asort.
  Lemma dug_first : forall i b fa ba fb bb c q eps, let s := Node i DIFFERENCE b (Leaf fa ba) (Leaf fb bb) in let r := c_ray c in
    tree_ok s -> boxes_current s -> world_ray r -> good_ray s r -> 0 < eps -> 0 < q ->
    (forall u, Rabs u <= eps -> placed fa (ray_at r (q + u))) ->
    placed fb (ray_at r q) -> (forall t, q < t -> ~ placed fb (ray_at r t)) ->
    (exists t0, t0 < q /\ placed fb (ray_at r t0) /\ (t0 <= 0 \/ forall t, t <= t0 -> ~ placed fa (ray_at r t))) ->
    propagate asort [s] c = (Fin q, s_id fb).
  Proof.
    intros i b fa ba fb bb c q eps s r T C W G E Q NA PB NB (t0 & T0 & PB0 & ALT).
    pose proof T as [TA TB]. pose proof C as (CA & CB & as' & AS' & Eb). pose proof G as (CD & GA & GB). cbn [shape_box] in Eb.
    simpl in CA, GA, GB.
    destruct (surf_chord fa r TA W GA) as [(a0 & a1 & HA & LA & SA)|[HA SA]].
    2:{ exfalso. assert (q + 0 = q + eps); [|lra]. apply SA; apply NA; [rewrite Rabs_R0; lra|rewrite Rabs_right; lra]. }
    destruct (surf_chord fb r TB W GB) as [(p & q' & HB & LB & SB)|[HB SB]].
    2:{ exfalso. assert (q = t0); [|lra]. apply SB; auto. }
    assert (q' = q).
    { apply SB in PB. destruct (Req_dec q' q); auto. exfalso. apply (NB q'); [lra|]. apply SB. lra. }
    subst q'.
    assert (A0 : a0 <= q - eps) by (apply SA; apply (NA (- eps)); rewrite Rabs_left1; lra).
    assert (A1 : q + eps <= a1) by (apply SA; apply (NA eps); rewrite Rabs_right; lra).
    apply SB in PB0.
    assert (PA : p <= 0 \/ p < a0).
    { destruct ALT as [Z|N]; [left; lra|]. right. destruct (Rlt_dec p a0); auto. exfalso. apply (N a0); [lra|]. apply SA. lra. }
    assert (BH : box_hit b r = true).
    { destruct (box_hit b r) eqn:BH; auto. exfalso.
      assert (X : a0 = a1); [|lra]. simpl in Eb. subst b. rewrite CA in BH.
      apply (box_hit_false_point _ r (surf_box_vbox _ _) (proj2 (proj2 W)) CD BH); apply surf_box_contains; try apply TA; apply SA; lra. }
    assert (SI : shape_intersect asort s r = csg_combine PInf asort DIFFERENCE [Fin a0; Fin a1] [s_id fa; s_id fa] [Fin p; Fin q] [s_id fb; s_id fb]).
    { unfold s. cbn [shape_intersect]. rewrite BH, HA, HB. reflexivity. }
    destruct (diff_first asort AS a0 a1 p q (s_id fa) (s_id fb)) as (I1 & I2 & I3); try lra.
    rewrite <- SI in I1, I2, I3. apply propagate_one; auto.
  Qed.
  Lemma leaf_first : forall f b c q, let r := c_ray c in surf_ok f -> 0 < q ->
    In (Fin q) (surf_hits f r) -> (forall t, In (Fin t) (surf_hits f r) -> 0 < t -> q <= t) ->
    propagate asort [Leaf f b] c = (Fin q, s_id f).
  Proof.
    intros f b c q r OK Q I M. apply propagate_one; auto. intros j J. cbn [shape_intersect fst snd] in J.
    unfold surf_hits in J. destruct (sort2 _) as [h0 h1]. simpl in J. destruct J as [J|[J|[]]]; injection J; auto.
  Qed.
End Dug.

(** ** Conditions that hold near a point *)
Definition near (P : R -> Prop) : Prop := exists eps, 0 < eps /\ forall u, Rabs u <= eps -> P u.
Lemma near_and : forall P Q, near P -> near Q -> near (fun u => P u /\ Q u).
Proof.
  intros P Q (e1 & E1 & H1) (e2 & E2 & H2). exists (Rmin e1 e2). split; [apply Rmin_pos; auto|]. intros u U.
  pose proof (Rmin_l e1 e2). pose proof (Rmin_r e1 e2). split; [apply H1|apply H2]; lra.
Qed.
Lemma near_quad : forall A B C, A < 0 -> near (fun u => A + B * u + C * (u * u) <= 0).
Proof.
  intros A B C H. set (K := Rabs B + Rabs C + 1). pose proof (Rabs_pos B) as PB. pose proof (Rabs_pos C) as PC.
  assert (K1 : 1 <= K) by (unfold K; lra).
  exists (Rmin 1 (- A / K)). assert (P : 0 < - A / K) by (apply Rdiv_lt_0_compat; lra). split; [apply Rmin_pos; lra|].
  intros u U. pose proof (Rmin_l 1 (- A / K)). pose proof (Rmin_r 1 (- A / K)).
  assert (U1 : Rabs u <= 1) by lra. assert (U2 : Rabs u * K <= - A).
  { apply (Rmult_le_compat_r K) in U; [|lra]. eapply Rle_trans; [exact U|]. apply (Rle_trans _ (- A / K * K)); [apply Rmult_le_compat_r; lra|].
    right. field. lra. }
  assert (B1 : B * u <= Rabs B * Rabs u) by (rewrite <- Rabs_mult; apply Rle_abs).
  pose proof (Rabs_pos u) as PU.
  assert (C1 : C * (u * u) <= Rabs C * Rabs u).
  { apply Rle_trans with (Rabs (C * (u * u))); [apply Rle_abs|]. rewrite !Rabs_mult. apply Rmult_le_compat_l; auto. nra. }
  unfold K in U2. nra.
Qed.
Lemma near_line : forall a b c, a < c -> near (fun u => a + u * b <= c).
Proof. intros a b c H. destruct (near_quad (a - c) b 0 ltac:(lra)) as (e & E & K). exists e. split; auto. intros u U. specialize (K u U). lra. Qed.
Lemma near_line' : forall a b c, c < a -> near (fun u => c <= a + u * b).
Proof. intros a b c H. destruct (near_quad (c - a) (- b) 0 ltac:(lra)) as (e & E & K). exists e. split; auto. intros u U. specialize (K u U). lra. Qed.
Lemma near_impl : forall (P Q : R -> Prop), (forall u, P u -> Q u) -> near P -> near Q.
Proof. intros P Q I (e & E & H). exists e. auto. Qed.
Lemma near_aperture : forall ap off y z dy dz, in_open_aperture ap off y z -> near (fun u => in_aperture ap off (y + u * dy) (z + u * dz)).
Proof.
  intros [d|a b] off y z dy dz H; simpl in *.
  - eapply near_impl; [|apply (near_quad ((y - fst off) * (y - fst off) + (z - snd off) * (z - snd off) - d / 2 * (d / 2))
      (2 * ((y - fst off) * dy + (z - snd off) * dz)) (dy * dy + dz * dz)); lra].
    intros u U. cbv beta in U. nra.
  - destruct H as [Y Z]. apply Rabs_def2 in Y. apply Rabs_def2 in Z.
    eapply near_impl; [|apply near_and; [apply near_and; [apply (near_line (y - fst off) dy (a / 2)); lra|apply (near_line' (y - fst off) dy (- (a / 2))); lra]|
      apply near_and; [apply (near_line (z - snd off) dz (b / 2)); lra|apply (near_line' (z - snd off) dz (- (b / 2))); lra]]].
    intros u U. cbv beta in U. split; apply Rabs_le; lra.
Qed.
Lemma open_aperture : forall ap off y z, in_open_aperture ap off y z -> in_aperture ap off y z.
Proof. intros [d|a b] off y z H; simpl in *; [lra|]. destruct H; split; lra. Qed.
