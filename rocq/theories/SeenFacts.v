(** * SeenFacts: the boxes any program stores, and what is shown through them *)
From Coq Require Import Reals List Bool ZArith Permutation Sorted Lra Lia.
Import ListNotations.
From Verif Require Import XR XRFacts Arr ArrFacts Csg SpecCsg CsgFacts CsgProps Lin LinFacts Ops Prim Surf
  SpecGeom SpecTree SpecSeen PrimFacts PrimFacts2 SpanFacts BoxFacts TreeFacts.
Open Scope R_scope.

Section Combine.
  Variable asort : list xr -> list nat.
  Hypothesis AS : argsort_ok asort.

  Ltac enum x0 x1 y0 y1 :=
    destruct (AS [x0; x1; y0; y1]) as [P S]; simpl (seq _ _) in P;
    apply perm4 in P; destruct P as (a & b & c & d & EP & ND & Ia & Ib & Ic & Id);
    unfold combine_span, array_csg, array_csg_unsorted; cbn [fst snd app length];
    rewrite EP in S |- *; clear EP;
    inversion ND as [|? ? N1 ND1]; subst; inversion ND1 as [|? ? N2 ND2]; subst;
    inversion ND2 as [|? ? N3 ND3]; subst; clear ND ND1 ND2 ND3;
    unfold gather in S; cbn [map] in S;
    apply StronglySorted_inv in S; destruct S as [S F1];
    apply StronglySorted_inv in S; destruct S as [S F2];
    apply StronglySorted_inv in S; destruct S as [S F3]; clear S;
    rewrite Forall_forall in F1, F2, F3;
    assert (O1 := F1 _ (or_introl eq_refl)); assert (O2 := F2 _ (or_introl eq_refl));
    assert (O3 := F3 _ (or_introl eq_refl)); clear F1 F2 F3;
    simpl in Ia; destruct Ia as [<-|[<-|[<-|[<-|[]]]]];
    simpl in Ib; destruct Ib as [<-|[<-|[<-|[<-|[]]]]]; try (exfalso; apply N1; simpl; tauto);
    simpl in Ic; destruct Ic as [<-|[<-|[<-|[<-|[]]]]];
      try (exfalso; apply N1; simpl; tauto); try (exfalso; apply N2; simpl; tauto);
    simpl in Id; destruct Id as [<-|[<-|[<-|[<-|[]]]]];
      try (exfalso; apply N1; simpl; tauto); try (exfalso; apply N2; simpl; tauto);
      try (exfalso; apply N3; simpl; tauto);
    clear N1 N2 N3; cbn [nth] in O1, O2, O3; cbn [xsle xleb] in O1, O2, O3; try discriminate; rhyps;
    try (exfalso; lra).
  Ltac keep :=
    match goal with |- context [csg_keep ?op ?n ?p] =>
      let k := eval vm_compute in (csg_keep op n p) in change (csg_keep op n p) with k end;
    cbv [combine fst snd where_fill gather nth map sort_by insert_by xsle xleb sort2].

  (** the span of a combination is an interval, or empty *)
  Lemma combine_vspan_fin : forall op a0 a1 b0 b1, op <> DIFFERENCE -> a0 <= a1 -> b0 <= b1 ->
    vspan (combine_span asort op (Fin a0, Fin a1) (Fin b0, Fin b1)).
  Proof.
    intros op a0 a1 b0 b1 Hop Ha Hb. destruct op; [| |congruence].
    all: enum (Fin a0) (Fin a1) (Fin b0) (Fin b1); keep; rcases;
      first [right; reflexivity | left; do 2 eexists; split; [reflexivity|lra]].
  Qed.
  Lemma combine_vspan : forall op a b, op <> DIFFERENCE -> vspan a -> vspan b -> vspan (combine_span asort op a b).
  Proof.
    intros op a b Hop [(a0 & a1 & -> & Ha)| ->] [(b0 & b1 & -> & Hb)| ->].
    - apply combine_vspan_fin; auto.
    - destruct op; [| |congruence]; [rewrite (union_empty_r asort AS) by auto; left; eauto|rewrite (inter_empty_r asort AS); right; auto].
    - destruct op; [| |congruence]; [rewrite (union_empty_l asort AS) by auto; left; eauto|rewrite (inter_empty_l asort AS); right; auto].
    - rewrite (both_empty asort AS) by auto. right; auto.
  Qed.
  Lemma csg_box_vbox : forall op a b, vbox a -> vbox b -> vbox (csg_box asort op a b).
  Proof.
    intros op a b (X & Y & Z) (X' & Y' & Z'). destruct op; cbn [csg_box];
      try (repeat split; auto; apply combine_vspan; auto; discriminate).
  Qed.

  Lemma union_extent_span : forall a0 a1 b0 b1 lo hi, a0 < a1 -> b0 < b1 -> union_extent a0 a1 b0 b1 lo hi ->
    combine_span asort UNION (Fin a0, Fin a1) (Fin b0, Fin b1) = (Fin lo, Fin hi).
  Proof.
    intros a0 a1 b0 b1 lo hi Ha Hb [(H1 & H2 & -> & ->)|[(H & -> & ->)|(H & -> & ->)]].
    - apply union_overlap; auto; try lra. unfold Rmax, Rmin. repeat destruct (Rle_dec _ _); lra.
    - apply union_apart; auto.
    - apply union_apart_r; auto.
  Qed.
End Combine.

(** ** Passing through a stored box *)
Lemma max_inf : forall x y z e, x = PInf \/ y = PInf \/ z = PInf -> xltb (xmax (xmax x y) z) e = false.
Proof. intros x y z e [-> | [-> | ->]]; [destruct y, z|destruct x, z|destruct x, y]; destruct e; simpl; rcases; auto. Qed.
Lemma min_minf : forall x y z e, x = MInf \/ y = MInf \/ z = MInf -> xltb e (xmin (xmin x y) z) = false.
Proof. intros x y z e [-> | [-> | ->]]; [destruct y, z|destruct x, z|destruct x, y]; destruct e; simpl; rcases; auto. Qed.
Lemma box_hit_crosses : forall b r, vbox b -> moving r -> clear_dir r -> (box_hit b r = true <-> crosses b r).
Proof.
  intros b r V M C. split.
  - intro H. destruct b as [sx sy sz]. destruct V as (Vx & Vy & Vz). cbn [spanx spany spanz] in *.
    destruct C as (Cx & Cy & Cz).
    assert (E : forall b, spanx b = (PInf, PInf) \/ spany b = (PInf, PInf) \/ spanz b = (PInf, PInf) -> box_hit b r = false).
    { intros b K. destruct (box_hit b r) eqn:Q; auto. exfalso. unfold box_hit in Q.
      assert (N : forall a d, fst (cube_axis_hits (PInf, PInf) a d) = PInf \/ snd (cube_axis_hits (PInf, PInf) a d) = MInf).
      { intros a d. destruct (cube_axis_empty a d) as [-> | ->]; auto. }
      unfold cube_hits in Q. destruct b as [bx by' bz]. cbn [spanx spany spanz] in *.
      destruct (cube_axis_hits bx _ _) as [x0 x1] eqn:E1, (cube_axis_hits by' _ _) as [y0 y1] eqn:E2, (cube_axis_hits bz _ _) as [z0 z1] eqn:E3.
      assert (F : xltb (xmax (xmax x0 y0) z0) (xmin (xmin x1 y1) z1) = false).
      { destruct K as [-> | [-> | ->]].
        - pose proof (N (vx (origin r)) (vx (direction r))) as N'. rewrite E1 in N'. cbn [fst snd] in N'.
          destruct N' as [-> | ->]; [apply max_inf|apply min_minf]; auto.
        - pose proof (N (vy (origin r)) (vy (direction r))) as N'. rewrite E2 in N'. cbn [fst snd] in N'.
          destruct N' as [-> | ->]; [apply max_inf|apply min_minf]; auto.
        - pose proof (N (vz (origin r)) (vz (direction r))) as N'. rewrite E3 in N'. cbn [fst snd] in N'.
          destruct N' as [-> | ->]; [apply max_inf|apply min_minf]; auto. }
      rewrite F in Q. discriminate. }
    destruct Vx as [(x0 & x1 & -> & Hx)| ->]; [|rewrite E in H by (cbn [spanx]; auto); discriminate].
    destruct Vy as [(y0 & y1 & -> & Hy)| ->]; [|rewrite E in H by (cbn [spany]; auto); discriminate].
    destruct Vz as [(z0 & z1 & -> & Hz)| ->]; [|rewrite E in H by (cbn [spanz]; auto); discriminate].
    unfold box_hit in H.
    destruct (cube_hits_exact x0 x1 y0 y1 z0 z1 r Hx Hy Hz M Cx Cy Cz) as [(t0 & t1 & Q & L & D)|[Q D]];
      unfold fin_box in Q; rewrite Q in H; [|discriminate].
    exists t0, t1. split; auto. unfold in_box, in_span; cbn [spanx spany spanz fst snd xleb]. rewrite !rleb_true.
    pose proof (proj2 (D t0) ltac:(lra)). pose proof (proj2 (D t1) ltac:(lra)). tauto.
  - intros (t & t' & L & I & I'). destruct (box_hit b r) eqn:E; auto. exfalso.
    pose proof (box_hit_false_point b r V M C E t t' I I'). lra.
Qed.

(** every stored box is an interval, or empty, along each axis *)
Fixpoint boxes_valid (s : shape) : Prop :=
  match s with
  | Leaf _ b => vbox b
  | Node _ _ b l r => vbox b /\ boxes_valid l /\ boxes_valid r
  end.

Section Seen.
  Variable asort : list xr -> list nat.
  Hypothesis AS : argsort_ok asort.

  Lemma shape_shown : forall s r, tree_ok s -> boxes_valid s -> world_ray r -> good_ray s r ->
    exists L, forall t, ~ In t L ->
      (inside_at xsle (Fin t) (fst (shape_intersect asort s r)) = true <-> shown s r (ray_at r t)).
  Proof.
    induction s as [f b|nid op b l IHl r0 IHr]; intros r T V W G.
    - cbn [shape_intersect fst shown]. apply surf_inside; auto.
    - cbn [tree_ok boxes_valid good_ray] in T, V, G. destruct T as [Tl Tr], V as (Vb & Vl & Vr), G as (Cd & Gl & Gr).
      pose proof (box_hit_crosses b r Vb (proj2 (proj2 W)) Cd) as HC.
      cbn [shape_intersect shown]. destruct (box_hit b r) eqn:HB.
      + destruct (IHl r Tl Vl W Gl) as [Ll Hl], (IHr r Tr Vr W Gr) as [Lr Hr].
        exists (Ll ++ Lr). intros t N.
        assert (N1 : ~ In t Ll) by (intro; apply N, in_or_app; auto).
        assert (N2 : ~ In t Lr) by (intro; apply N, in_or_app; auto).
        specialize (Hl t N1). specialize (Hr t N2).
        destruct (shape_columns asort AS l r) as (S1 & L1 & _), (shape_columns asort AS r0 r) as (S2 & L2 & _).
        destruct (shape_intersect asort l r) as [lh ls], (shape_intersect asort r0 r) as [rh rs]. cbn [fst snd] in *.
        rewrite (csg_combine_inside xsle PInf asort xsle_trans AS); auto;
          try (rewrite ?L1, ?L2; apply shape_rows_even).
        destruct op; cbn [bool_op].
        * rewrite orb_true_iff, Hl, Hr. tauto.
        * rewrite andb_true_iff, Hl, Hr. tauto.
        * rewrite andb_true_iff, negb_true_iff, Hl, <- Hr. rewrite not_true_iff_false. tauto.
      + cbn [fst]. exists []. intros t _.
        assert (inside_at xsle (Fin t) (repeat PInf (shape_rows (Node nid op b l r0))) = false) as ->.
        { unfold inside_at. rewrite below_none; auto. apply Forall_forall. intros x Hx. apply repeat_spec in Hx. subst; auto. }
        split; [discriminate|]. intros [K _]. apply HC in K. discriminate.
  Qed.

  (** a ray that does not pass through the box gets no hit at all *)
  Lemma shape_culled : forall nid op b l r0 r, vbox b -> moving r -> clear_dir r -> ~ crosses b r ->
    forall h, In h (fst (shape_intersect asort (Node nid op b l r0) r)) -> h = PInf.
  Proof.
    intros nid op b l r0 r V M C N h H. cbn [shape_intersect] in H. destruct (box_hit b r) eqn:E.
    - exfalso. apply N. apply box_hit_crosses; auto.
    - cbn [fst] in H. apply repeat_spec in H. auto.
  Qed.
End Seen.

(** what is shown, where the boxes contain what they should *)
Lemma shown_inside : forall s r, tree_ok s -> boxes_current s -> boxes_fit s -> world_ray r -> good_ray s r ->
  exists L, forall t, ~ In t L -> (shown s r (ray_at r t) <-> inside s (ray_at r t)).
Proof.
  induction s as [f b|nid op b l IHl r0 IHr]; intros r T C F W G.
  - exists []. intros t _. cbn [shown inside]. tauto.
  - pose proof (shape_in_box _ T C F) as [V B]. cbn [shape_box] in V, B.
    cbn [tree_ok boxes_current boxes_fit good_ray] in T, C, F, G.
    destruct T as [Tl Tr], C as (Cl & Cr & _), F as (Fl & Fr & _), G as (Cd & Gl & Gr).
    destruct (IHl r Tl Cl Fl W Gl) as [Ll Hl], (IHr r Tr Cr Fr W Gr) as [Lr Hr].
    destruct (Classical_Prop.classic (crosses b r)) as [K|K].
    + exists (Ll ++ Lr). intros t N.
      assert (N1 : ~ In t Ll) by (intro; apply N, in_or_app; auto).
      assert (N2 : ~ In t Lr) by (intro; apply N, in_or_app; auto).
      specialize (Hl t N1). specialize (Hr t N2). cbn [shown inside]. destruct op; tauto.
    + destruct (Classical_Prop.classic (exists t, inside (Node nid op b l r0) (ray_at r t))) as [[t0 H0]|N].
      * exists [t0]. intros t N. cbn [shown]. split; [tauto|]. intro H. exfalso. apply N. left.
        pose proof (B _ H0) as I0. pose proof (B _ H) as I. destruct (Rtotal_order t0 t) as [L|[L|L]]; auto; exfalso; apply K.
        -- exists t0, t; auto.
        -- exists t, t0; auto.
      * exists []. intros t _. cbn [shown]. split; [tauto|]. intro H. exfalso; eauto.
Qed.
