(** * ShapesProps: proofs for C118 *)
From Coq Require Import Reals List Bool Lra Lia.
Import ListNotations.
From Verif Require Import XR XRFacts Lin LinFacts Csg Prim SpecGeom PrimFacts PrimFacts2 Surf World WorldFacts MotionFacts3 TraceFacts8 Shapes SpecShapes.
Open Scope R_scope.

Lemma allowed_iff : forall c, (exists p, shape_primitive c = Some p) <-> allowed c.
Proof.
  intros [r|r a b|f h|w l|a b|x y z|a]; cbn [shape_primitive prim_init allowed]; try (split; [auto|intros _; eexists; reflexivity]).
  destruct (rleb (default f 1) 0) eqn:E1, (rleb (default h 1) 0) eqn:E2; rhyps; cbn [orb]; split; intro H; try (destruct H as (p & H); discriminate); try lra; eauto.
Qed.
Lemma half_within : forall s x, within (- (1 / 2) * s) (1 / 2 * s) x <-> half_of s x.
Proof. intros s x. unfold within, half_of. destruct (Rle_dec 0 s); [rewrite (Rabs_right s) by lra|rewrite (Rabs_left s) by lra]; unfold Rabs; destruct Rcase_abs; lra. Qed.
Lemma half_within' : forall s x, within (s * - (1 / 2)) (s * (1 / 2)) x <-> half_of s x.
Proof. intros s x. rewrite <- half_within. unfold within. split; intros; lra. Qed.
Lemma within_between : forall a b z, between a b z <-> within a b z.
Proof. intros. unfold between, within. unfold Rmin, Rmax. destruct (Rle_dec a b); lra. Qed.

Theorem asked_solid : forall c p, shape_primitive c = Some p -> usual c -> forall x y z, solid p (point x y z) <-> asked c x y z.
Proof.
  intros c p E U x y z.
  destruct c as [r|r a b|f h|w l|a b|a b c|a]; cbn [shape_primitive prim_init] in E; cbn [usual] in U.
  - injection E as <-. reflexivity.
  - injection E as <-. cbn [solid asked point vx vy vz]. unfold within. split; intros (A & B); split; auto; lra.
  - destruct (rleb _ _ || rleb _ _)%bool; [discriminate|]. injection E as <-. reflexivity.
  - injection E as <-. cbn [solid asked point vx vy vz]. unfold half_of. destruct U. rewrite (Rabs_right (default w 2)), (Rabs_right (default l 2)) by lra.
    split; intros (A & B & C); repeat split; auto; lra.
  - injection E as <-. cbn [solid asked]. destruct (default a (-1, -1, -1)) as [[x0 y0] z0], (default b (1, 1, 1)) as [[x1 y1] z1]. cbn [point vx vy vz].
    rewrite !within_between. reflexivity.
  - injection E as <-. cbn [solid asked point vx vy vz]. rewrite !within_between, !half_within. reflexivity.
  - injection E as <-. cbn [solid asked point vx vy vz]. rewrite !within_between, !half_within'. reflexivity.
Qed.


(** ** what rays meet *)
Definition along (r : ray) (c : shape_call) (t : R) : Prop :=
  let o := origin r in let d := direction r in asked c (vx o + t * vx d) (vy o + t * vy d) (vz o + t * vz d).
Lemma solid_point : forall p q, solid p q <-> solid p (point (vx q) (vy q) (vz q)).
Proof. intros [?|? ? ? ?|[[? ?] ?] [[? ?] ?]|? ?|? ?] q; reflexivity. Qed.
Lemma along_solid : forall c p r t, shape_primitive c = Some p -> usual c -> along r c t <-> solid p (ray_at r t).
Proof. intros c p r t E U. unfold along. rewrite <- (asked_solid c p E U). rewrite (solid_point p (ray_at r t)). reflexivity. Qed.
Lemma answers_tells : forall h S, answers h S -> tells (sort2 h) S.
Proof.
  intros h S [(t0 & t1 & -> & L & H)|(-> & H)].
  - left. exists t0, t1. split; auto. apply sort2_sorted. cbn. apply rleb_true. exact L.
  - right. split; [reflexivity|]. intros t t' A _. destruct (H t A).
Qed.
Theorem shapes_tell : forall c p r, shape_primitive c = Some p -> usual c -> moving r -> clear_ray p r ->
  match c with MkXYPlane _ _ => vz (direction r) <> 0 | _ => True end -> tells (sort2 (prim_hits p r)) (along r c).
Proof.
  intros c p r E U M CR PL.
  assert (T : tells (sort2 (prim_hits p r)) (fun t => solid p (ray_at r t))).
  { assert (CU : forall c0 c1, p = PCube c0 c1 -> tells (sort2 (prim_hits p r)) (fun t => solid p (ray_at r t))).
    { intros [[x0 y0] z0] [[x1 y1] z1] ->. destruct (cube_prim_exact x0 x1 y0 y1 z0 z1 r M CR) as [(t0 & t1 & H & L & S)|(H & S)].
      - left. exists t0, t1. rewrite H. split; [apply sort2_sorted; cbn; apply rleb_true; lra|]. split; [lra|exact S].
      - right. rewrite H. split; [reflexivity|exact S]. }
    destruct c as [ra|ra a b|f h|w l|a b|a b c|a]; cbn [shape_primitive prim_init] in E; cbn [usual] in U.
    - injection E as <-. destruct (sphere_hits_exact ra r M) as (A & _). apply answers_tells in A. cbn [prim_hits]. destruct (sphere_hits ra r) as [h0 h1]. cbn [fst snd] in A.
      rewrite sort2_swap. exact A.
    - injection E as <-. apply answers_tells. apply cylinder_hits_exact; auto.
    - destruct (rleb (default f 1) 0) eqn:E1; [discriminate|]. destruct (rleb (default h 1) 0) eqn:E2; [discriminate|]. rhyps. injection E as <-.
      apply answers_tells. apply paraboloid_hits_exact; auto.
    - injection E as <-. apply answers_tells. destruct (plane_prim_exact (default w 2) (default l 2) r (proj1 U) (proj2 U) CR) as (A & _). exact (proj1 (A PL)).
    - injection E as <-. eapply CU; reflexivity.
    - injection E as <-. eapply CU; reflexivity.
    - injection E as <-. eapply CU; reflexivity. }
  destruct T as [(t0 & t1 & H & L & S)|(H & S)].
  - left. exists t0, t1. split; [exact H|]. split; [exact L|]. intro t. rewrite <- (S t). apply (along_solid c p r t E U).
  - right. split; auto. intros t t' A B. apply S; apply (along_solid c p r _ E U); auto.
Qed.

(** ** signs and orders *)
Lemma sphere_sign : forall r, same_shape (PSphere (- r)) (PSphere r).
Proof.
  intro r. split; [|split; [reflexivity|]].
  - intro ra. cbn [prim_hits]. unfold sphere_hits. replace (- r * - r) with (r * r) by ring. reflexivity.
  - unfold bounding_points, corner_points. cbn [prim_corners]. rewrite !Ropp_involutive. rewrite (Rmin_comm r), (Rmax_comm r). reflexivity.
Qed.
Lemma cylinder_sign : forall r lo hi cap, same_shape (PCylinder (- r) lo hi cap) (PCylinder r lo hi cap).
Proof.
  intros r lo hi cap. split; [|split; [reflexivity|]].
  - intro ra. cbn [prim_hits]. unfold cylinder_hits. replace (- r * - r) with (r * r) by ring. reflexivity.
  - unfold bounding_points, corner_points. cbn [prim_corners]. rewrite !Ropp_involutive. rewrite (Rmin_comm r), (Rmax_comm r). reflexivity.
Qed.
Lemma sort2_fin : forall a b, sort2 (Fin a, Fin b) = (Fin (Rmin a b), Fin (Rmax a b)).
Proof. intros a b. unfold sort2. cbn. unfold Rmin, Rmax. destruct (rleb a b) eqn:E; rhyps; destruct (Rle_dec a b); cbn; auto; try lra; repeat f_equal; lra. Qed.
Lemma cube_order : forall x0 y0 z0 x1 y1 z1 x0' y0' z0' x1' y1' z1',
  (x0', x1') = (x0, x1) \/ (x0', x1') = (x1, x0) -> (y0', y1') = (y0, y1) \/ (y0', y1') = (y1, y0) -> (z0', z1') = (z0, z1) \/ (z0', z1') = (z1, z0) ->
  same_shape (PCube (x0', y0', z0') (x1', y1', z1')) (PCube (x0, y0, z0) (x1, y1, z1)).
Proof.
  assert (K : forall a b a' b', (a', b') = (a, b) \/ (a', b') = (b, a) -> Rmin a' b' = Rmin a b /\ Rmax a' b' = Rmax a b).
  { intros a b a' b' [E|E]; injection E as -> ->; split; auto using Rmin_comm, Rmax_comm. }
  intros x0 y0 z0 x1 y1 z1 x0' y0' z0' x1' y1' z1' X Y Z. apply K in X as (X1 & X2). apply K in Y as (Y1 & Y2). apply K in Z as (Z1 & Z2).
  split; [|split].
  - intro r. cbn [prim_hits]. unfold cube_box, fin3. rewrite !sort2_fin, X1, X2, Y1, Y2, Z1, Z2. reflexivity.
  - intro q. cbn [prim_normal]. unfold cube_normal. rewrite X1, X2, Y1, Y2, Z1, Z2. reflexivity.
  - unfold bounding_points, corner_points. cbn [prim_corners]. rewrite X1, X2, Y1, Y2, Z1, Z2. reflexivity.
Qed.

(** ** heights in the wrong order *)
Lemma clip_swap : forall s a b, clip_hits s (a, b) = clip_hits s (b, a).
Proof. intros s a b. unfold clip_hits. rewrite (sort2_swap a b). reflexivity. Qed.
Lemma upside_down : forall r lo hi cap, lo < hi -> forall ra,
  prim_hits (PCylinder r hi lo cap) ra = if isclose (vz (direction ra)) 0 then (PInf, PInf) else prim_hits (PCylinder r lo hi cap) ra.
Proof.
  intros r lo hi cap L ra. cbn [prim_hits]. unfold cylinder_hits, z_clip. destruct (isclose (vz (direction ra)) 0) eqn:E.
  - assert (I : (rleb hi (vz (origin ra)) && rleb (vz (origin ra)) lo)%bool = false).
    { destruct (rleb hi _) eqn:E1, (rleb _ lo) eqn:E2; auto; rhyps; lra. }
    rewrite I. cbn [andb]. unfold clip_hits. destruct (sort2 (sort2 _)) as [a0 a1]. cbn [sort2]. unfold sort2. cbn.
    destruct a0, a1; reflexivity.
  - cbn [andb]. apply clip_swap.
Qed.
Lemma caps_turned : forall r lo hi q, isclose lo hi = false -> isclose hi lo = false -> vz q = lo \/ vz q = hi ->
  exists n, prim_normal (PCylinder r lo hi true) q = Some n /\ prim_normal (PCylinder r hi lo true) q = Some (vopp n) /\ n = vector 0 0 (if Req_EM_T (vz q) hi then 1 else -1).
Proof.
  assert (ID : forall x, isclose x x = true). { intro x. unfold isclose. apply rleb_true. replace (x - x) with 0 by ring. rewrite Rabs_R0. pose proof (Rabs_pos x). unfold atol, rtol. nra. }
  assert (V : forall s, s = 1 \/ s = -1 -> vnormalize (V4 0 0 s 0) = Some (V4 0 0 s 0)).
  { intros s S. unfold vnormalize. assert (N : vnorm (V4 0 0 s 0) = 1). { unfold vnorm, vdot. cbn [vx vy vz vw]. replace (_ + _ + _ + _) with 1 by (destruct S; subst; ring). apply sqrt_1. }
    rewrite N. destruct (Req_EM_T _ 0) as [Z|_]; [exfalso; unfold vdot in Z; cbn [vx vy vz vw] in Z; destruct S; subst; lra|]. f_equal. unfold vscale. cbn [vx vy vz vw]. f_equal; field. }
  assert (A : forall lo hi q, isclose lo hi = false -> vz q = lo -> cylinder_normal lo hi true q = Some (V4 0 0 (-1) 0)).
  { intros lo hi q N E. unfold cylinder_normal. rewrite E, N, ID. apply V. auto. }
  assert (B : forall lo hi q, vz q = hi -> cylinder_normal lo hi true q = Some (V4 0 0 1 0)).
  { intros lo hi q E. unfold cylinder_normal. rewrite E, ID. apply V. auto. }
  intros r lo hi q N1 N2 [E|E]; cbn [prim_normal].
  - assert (D : lo <> hi) by (intros ->; rewrite ID in N1; discriminate). rewrite (A lo hi q N1 E), (B hi lo q E). eexists. split; [reflexivity|].
    rewrite E. destruct (Req_EM_T lo hi); [contradiction|]. split; [|reflexivity]. f_equal. unfold vopp, vscale. cbn [vx vy vz vw]. apply v4_eq; cbn [vx vy vz vw]; ring.
  - rewrite (B lo hi q E), (A hi lo q N2 E). eexists. split; [reflexivity|]. rewrite E. destruct (Req_EM_T hi hi); [|contradiction]. split; [|reflexivity]. f_equal. unfold vopp, vscale. cbn [vx vy vz vw]. apply v4_eq; cbn [vx vy vz vw]; ring.
Qed.
(** ** a plane with a negative side *)
Lemma axis_negative : forall dim o d, 0 < dim -> plane_axis_hits (- dim) o d = if isclose d 0 then (PInf, PInf) else plane_axis_hits dim o d.
Proof.
  intros dim o d D. unfold plane_axis_hits. destruct (isclose d 0) eqn:E.
  - assert (F : rleb (Rabs o) (- dim / 2) = false). { destruct (rleb _ _) eqn:X; auto. rhyps. pose proof (Rabs_pos o). lra. } rewrite F. reflexivity.
  - replace (- (o - - dim / 2)) with (- (o + dim / 2)) by field. replace (- (o + - dim / 2)) with (- (o - dim / 2)) by field. apply sort2_swap.
Qed.
Lemma beyond : forall h x, (if (xleb (snd (sort2 (PInf, x))) h && xleb h (fst (sort2 (PInf, x))))%bool then h else PInf) = PInf.
Proof. intros [t| | |] [x| | |]; unfold sort2; cbn; reflexivity. Qed.
Lemma plane_negative : forall w l ra, 0 < w -> prim_hits (PPlane (- w) l) ra = if isclose (vx (direction ra)) 0 then (PInf, PInf) else prim_hits (PPlane w l) ra.
Proof.
  intros w l ra W. cbn [prim_hits]. unfold plane_hits. rewrite (axis_negative w _ _ W). destruct (isclose (vx (direction ra)) 0); [|reflexivity].
  destruct (plane_axis_hits l _ _) as [y0 y1].
  assert (G : forall h, (if (xleb (snd (sort2 (PInf, y0))) h && xleb h (fst (sort2 (PInf, y1))))%bool then h else PInf) = PInf).
  { intros [t| | |]; destruct y0, y1; unfold sort2; cbn; reflexivity. }
  rewrite G. reflexivity.
Qed.

(** ** readers *)
Lemma primitive_stays : forall asort cs h h' l o p, get h l = Some o -> primitive o = Some p -> run_catching asort cs h = Some h' ->
  exists o', get h' l = Some o' /\ primitive o' = Some p.
Proof.
  intros asort cs h h' l o p G P H. destruct (run_catching_keeps asort cs h h' H) as (_ & K).
  destruct (K l o G) as (o' & G' & _ & E); [unfold primitive in P; destruct (o_kind o); try discriminate; exact I|].
  exists o'. split; auto. unfold primitive in *. rewrite E. exact P.
Qed.
Lemma made : forall asort c p m h, shape_primitive c = Some p -> exists h' o, run_call asort (CSurface p m) h = Ok h' /\ get h' (length (h_objs h)) = Some o /\ primitive o = Some p.
Proof.
  intros asort c p m h E. assert (I : prim_init p = Some p).
  { destruct c; cbn [shape_primitive] in E; try (injection E as <-; reflexivity). unfold prim_init in *. destruct (rleb _ _ || rleb _ _)%bool eqn:X; [discriminate|]. injection E as <-. rewrite X. reflexivity. }
  cbn [run_call]. unfold new_surface. rewrite I. eexists; eexists. split; [reflexivity|]. fold (fresh h).
  split; [eapply get_upd_same; eapply get_upd_same; apply get_alloc_new|reflexivity].
Qed.
