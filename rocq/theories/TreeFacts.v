(** * TreeFacts: CSG trees of placed primitives *)
From Coq Require Import Reals List Bool ZArith Permutation Sorted Lra Lia.
Import ListNotations.
From Verif Require Import XR XRFacts Arr ArrFacts Csg SpecCsg CsgFacts CsgProps Lin LinFacts Ops Prim Surf
  SpecGeom SpecTree PrimFacts PrimFacts2 SpanFacts BoxFacts.
Open Scope R_scope.

Lemma ray_at_map : forall m r t, ray_at (ray_map m r) t = mapply m (ray_at r t).
Proof.
  intros m [o d] t. unfold ray_at, ray_map; cbn [origin direction]. unfold mapply, vdot; cbn [vx vy vz vw].
  f_equal; ring.
Qed.

Lemma mapply_zero3 : forall m i d, is_inverse m i -> affine i -> vw d = 0 ->
  vx (mapply i d) = 0 -> vy (mapply i d) = 0 -> vz (mapply i d) = 0 -> vx d = 0 /\ vy d = 0 /\ vz d = 0.
Proof.
  intros m i d H A W X Y Z. pose proof (affine_w i d A) as W'. rewrite W in W'.
  assert (E : mapply i d = V4 0 0 0 0) by (apply v4_eq; auto).
  pose proof (inverse_apply_r m i d H) as Q. rewrite E in Q. rewrite <- Q.
  unfold mapply, vdot; cbn [vx vy vz vw]. repeat split; ring.
Qed.

Lemma local_moving : forall s r, surf_ok s -> world_ray r -> moving (ray_map (s_obj s) r).
Proof.
  intros s r (_ & A & I) (_ & Wd & M) (X & Y & Z). unfold ray_map in *; cbn [direction] in *.
  apply M. eapply mapply_zero3; eauto. eapply affine_inverse; eauto.
Qed.

(** [placed] in terms of the object transform *)
Lemma placed_local : forall s q, surf_ok s -> vw q = 1 ->
  (placed s q <-> solid (s_prim s) (mapply (s_obj s) q)).
Proof.
  intros s q (_ & A & I) W. split.
  - intros (p & _ & S & <-). rewrite (inverse_apply_l _ _ p I). auto.
  - intro S. exists (mapply (s_obj s) q). split; [rewrite affine_w; auto; eapply affine_inverse; eauto|].
    split; auto. apply inverse_apply_r; auto.
Qed.

Lemma ray_at_w : forall r t, world_ray r -> vw (ray_at r t) = 1.
Proof. intros r t (A & B & _). unfold ray_at; cbn [vw]. rewrite A, B. ring. Qed.

(** ** Leaves *)
Lemma sort2_rev : forall a b, sort2 (a, b) = sort2 (b, a).
Proof.
  intros a b. unfold sort2; cbn [fst snd].
  destruct (xsle a b) eqn:E1, (xsle b a) eqn:E2; auto.
  - rewrite (xsle_antisym a b); auto.
  - destruct (xsle_total a b); congruence.
Qed.

(** up to two points, the two hits of a primitive delimit the solid *)
Lemma answers_inside : forall h S, answers h S \/ answers_thick h S ->
  exists L, forall t, ~ In t L ->
    (inside_at xsle (Fin t) [fst (sort2 h); snd (sort2 h)] = true <-> S t).
Proof.
  intros h S [[(t0 & t1 & -> & L & Q)|[-> Q]]|[(t0 & t1 & -> & L & Q)|[-> Q]]].
  - exists [t0; t1]. intros t N. rewrite sort2_fin, Rmin_left, Rmax_right by auto. cbn [fst snd].
    unfold inside_at, below. cbn [filter]. rewrite !before_fin, Q. simpl in N.
    rcases; cbn [length Nat.odd Nat.even negb]; split; intros; try discriminate; try lra; auto;
      exfalso; apply N; lra.
  - exists []. intros t _. split; [discriminate|intro H; destruct (Q t H)].
  - exists [t0; t1]. intros t N. rewrite sort2_fin, Rmin_left, Rmax_right by lra. cbn [fst snd].
    unfold inside_at, below. cbn [filter]. rewrite !before_fin, Q. simpl in N.
    rcases; cbn [length Nat.odd Nat.even negb]; split; intros; try discriminate; try lra; auto;
      exfalso; apply N; lra.
  - destruct (Classical_Prop.classic (exists t, S t)) as [[t0 H0]|N].
    + exists [t0]. intros t N. split; [discriminate|]. intro H. exfalso. apply N. left. apply Q; auto.
    + exists []. intros t _. split; [discriminate|]. intro H. exfalso; eauto.
Qed.

Lemma prim_answers : forall p r, prim_ok p -> moving r -> good_local p r ->
  exists L, forall t, ~ In t L ->
    (inside_at xsle (Fin t) [fst (sort2 (prim_hits p r)); snd (sort2 (prim_hits p r))] = true <-> solid p (ray_at r t)).
Proof.
  intros p r OK M [C X]. destruct p as [rad|rad lo hi cap|c0 c1|f h|w l].
  - destruct (sphere_hits_exact rad r M) as [A _]. cbn [prim_hits].
    destruct (sphere_hits rad r) as [a b]. cbn [fst snd] in A. rewrite sort2_rev.
    apply (answers_inside (b, a)). auto.
  - apply answers_inside. left. destruct OK. apply cylinder_hits_exact; auto.
  - destruct c0 as [[x0 y0] z0], c1 as [[x1 y1] z1]. apply answers_inside. right.
    exact (cube_prim_exact x0 x1 y0 y1 z0 z1 r M C).
  - apply answers_inside. left. destruct OK. apply paraboloid_hits_exact; auto.
  - apply answers_inside. left. destruct OK. apply plane_hits_exact; auto.
Qed.

Lemma surf_hits_alt : forall s r, surf_hits s r =
  [fst (sort2 (prim_hits (s_prim s) (ray_map (s_obj s) r))); snd (sort2 (prim_hits (s_prim s) (ray_map (s_obj s) r)))].
Proof. intros. unfold surf_hits. destruct (sort2 _); auto. Qed.

Lemma surf_inside : forall s r, surf_ok s -> world_ray r -> good_local (s_prim s) (ray_map (s_obj s) r) ->
  exists L, forall t, ~ In t L ->
    (inside_at xsle (Fin t) (surf_hits s r) = true <-> placed s (ray_at r t)).
Proof.
  intros s r OK W G. pose proof (local_moving s r OK W) as M.
  destruct (prim_answers (s_prim s) (ray_map (s_obj s) r)) as [L H]; auto.
  { apply OK. }
  exists L. intros t N. rewrite surf_hits_alt, H by auto. rewrite ray_at_map. symmetry.
  apply placed_local; auto. apply ray_at_w; auto.
Qed.

(** ** Shape of the returned columns *)
Section Tree.
  Variable asort : list xr -> list nat.
  Hypothesis AS : argsort_ok asort.

  Lemma sort2_le : forall h, xsle (fst (sort2 h)) (snd (sort2 h)) = true.
  Proof.
    intros [a b]. unfold sort2; cbn [fst snd]. destruct (xsle a b) eqn:E; cbn [fst snd]; auto.
    destruct (xsle_total a b); congruence.
  Qed.

  Lemma shape_columns : forall s r,
    StronglySorted (fun a b => xsle a b = true) (fst (shape_intersect asort s r)) /\
    length (fst (shape_intersect asort s r)) = shape_rows s /\
    length (snd (shape_intersect asort s r)) = shape_rows s.
  Proof.
    induction s as [f b|nid op b l IHl r0 IHr]; intro r.
    - cbn [shape_intersect fst snd]. rewrite surf_hits_alt. split; [|auto].
      repeat constructor. apply sort2_le.
    - cbn [shape_intersect]. destruct (box_hit b r).
      + destruct (IHl r) as (_ & L1 & L2), (IHr r) as (_ & R1 & R2).
        destruct (shape_intersect asort l r) as [lh ls], (shape_intersect asort r0 r) as [rh rs].
        cbn [fst snd] in *. split; [apply (csg_combine_sorted xsle PInf asort AS)|].
        destruct (csg_combine_length xsle PInf asort AS op lh ls rh rs) as [-> ->]. cbn [shape_rows]. lia.
      + cbn [fst snd]. rewrite !repeat_length. split; auto. clear. induction (shape_rows _); simpl; constructor; auto.
        apply Forall_forall. intros x H. apply repeat_spec in H. subst; reflexivity.
  Qed.

  Lemma shape_rows_even : forall s, Nat.odd (shape_rows s) = false.
  Proof.
    induction s; auto. cbn [shape_rows]. rewrite Nat.odd_add, IHs1, IHs2. auto.
  Qed.

  (** ** Pairing of hits and surfaces *)
  Lemma shape_pairs : forall nid op b l r0 r h i,
    In (h, i) (combine (fst (shape_intersect asort (Node nid op b l r0) r))
                       (snd (shape_intersect asort (Node nid op b l r0) r))) ->
    h = PInf \/
    In (h, i) (combine (fst (shape_intersect asort l r)) (snd (shape_intersect asort l r))) \/
    In (h, i) (combine (fst (shape_intersect asort r0 r)) (snd (shape_intersect asort r0 r))).
  Proof.
    intros nid op b l r0 r h i H. cbn [shape_intersect] in H. destruct (box_hit b r).
    - destruct (shape_columns l r) as (_ & L1 & L2), (shape_columns r0 r) as (_ & R1 & R2).
      destruct (shape_intersect asort l r) as [lh ls], (shape_intersect asort r0 r) as [rh rs]. cbn [fst snd] in *.
      eapply csg_combine_pair; eauto; congruence.
    - left. apply in_combine_l in H. cbn [fst] in H. apply repeat_spec in H. auto.
  Qed.

  (** a finite hit comes, with its id, from one of the leaves *)
  Lemma shape_leaf : forall s r h i,
    In (h, i) (combine (fst (shape_intersect asort s r)) (snd (shape_intersect asort s r))) ->
    h = PInf \/ exists f, In f (surface_ids s) /\ i = s_id f /\ In h (surf_hits f r).
  Proof.
    induction s as [f b|nid op b l IHl r0 IHr]; intros r h i H.
    - cbn [shape_intersect fst snd] in H. right. exists f. split; [left; auto|].
      rewrite surf_hits_alt in *. simpl in H. destruct H as [H|[H|[]]]; injection H as <- <-; simpl; auto.
    - apply shape_pairs in H. destruct H as [|[H|H]]; auto.
      + destruct (IHl _ _ _ H) as [|(f & I & E & K)]; auto. right. exists f. split; auto. cbn [surface_ids]. apply in_or_app; auto.
      + destruct (IHr _ _ _ H) as [|(f & I & E & K)]; auto. right. exists f. split; auto. cbn [surface_ids]. apply in_or_app; auto.
  Qed.

  (** ** The solid is contained in the stored box *)
  Lemma shape_in_box : forall s, tree_ok s -> boxes_current s -> boxes_fit s ->
    vbox (shape_box s) /\ forall q, inside s q -> in_box (shape_box s) q.
  Proof.
    clear AS asort.
    induction s as [f b|nid op b l IHl r0 IHr]; intros T C F; cbn [tree_ok boxes_current boxes_fit shape_box inside] in *.
    - subst b. split; [apply surf_box_vbox|]. intros q H. apply surf_box_contains; auto. apply T.
    - destruct T as [Tl Tr], C as (Cl & Cr & as' & AS' & ->), F as (Fl & Fr & F).
      destruct (IHl Tl Cl Fl) as [Vl Il], (IHr Tr Cr Fr) as [Vr Ir].
      destruct (csg_box_sound as' AS' op _ _ Vl Vr F) as [V K]. split; auto.
      intros q H. apply K. destruct op; [destruct H|destruct H|destruct H]; auto.
  Qed.

  (** ** The main theorem *)
  Lemma shape_inside : forall s r, tree_ok s -> boxes_current s -> boxes_fit s -> world_ray r -> good_ray s r ->
    exists L, forall t, ~ In t L ->
      (inside_at xsle (Fin t) (fst (shape_intersect asort s r)) = true <-> inside s (ray_at r t)).
  Proof.
    induction s as [f b|nid op b l IHl r0 IHr]; intros r T C F W G.
    - cbn [shape_intersect fst inside]. apply surf_inside; auto.
    - pose proof (shape_in_box _ T C F) as [V B].
      cbn [tree_ok boxes_current boxes_fit good_ray] in T, C, F, G.
      destruct T as [Tl Tr], C as (Cl & Cr & _), F as (Fl & Fr & _), G as (Cd & Gl & Gr).
      cbn [shape_intersect]. destruct (box_hit b r) eqn:HB.
      + destruct (IHl r Tl Cl Fl W Gl) as [Ll Hl], (IHr r Tr Cr Fr W Gr) as [Lr Hr].
        exists (Ll ++ Lr). intros t N.
        assert (N1 : ~ In t Ll) by (intro; apply N, in_or_app; auto).
        assert (N2 : ~ In t Lr) by (intro; apply N, in_or_app; auto).
        specialize (Hl t N1). specialize (Hr t N2).
        destruct (shape_columns l r) as (S1 & L1 & _), (shape_columns r0 r) as (S2 & L2 & _).
        destruct (shape_intersect asort l r) as [lh ls], (shape_intersect asort r0 r) as [rh rs]. cbn [fst snd] in *.
        rewrite (csg_combine_inside xsle PInf asort xsle_trans AS); auto;
          try (rewrite ?L1, ?L2; apply shape_rows_even).
        destruct op; cbn [bool_op inside].
        * rewrite orb_true_iff, Hl, Hr. tauto.
        * rewrite andb_true_iff, Hl, Hr. tauto.
        * rewrite andb_true_iff, negb_true_iff, Hl, <- Hr. rewrite not_true_iff_false. tauto.
      + cbn [fst].
        assert (U : forall t t', inside (Node nid op b l r0) (ray_at r t) -> inside (Node nid op b l r0) (ray_at r t') -> t = t').
        { intros t t' H H'. apply (box_hit_false_point b r V (proj2 (proj2 W)) Cd HB).
          - exact (B _ H). - exact (B _ H'). }
        assert (Z : forall t, inside_at xsle (Fin t) (repeat PInf (shape_rows (Node nid op b l r0))) = false).
        { intro t. unfold inside_at. rewrite below_none; auto. apply Forall_forall. intros x Hx. apply repeat_spec in Hx. subst; auto. }
        destruct (Classical_Prop.classic (exists t, inside (Node nid op b l r0) (ray_at r t))) as [[t0 H0]|N].
        * exists [t0]. intros t N. rewrite Z. split; [discriminate|]. intro H. exfalso. apply N. left. apply U; auto.
        * exists []. intros t _. rewrite Z. split; [discriminate|]. intro H. exfalso; eauto.
  Qed.
End Tree.
