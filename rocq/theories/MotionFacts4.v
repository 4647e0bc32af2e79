(** * MotionFacts4: the stored boxes of a translated tree *)
From Coq Require Import Reals List Bool ZArith Lra Lia Psatz.
Import ListNotations.
From Verif Require Import XR XRFacts Arr Lin LinFacts Prim Csg Surf SpecGeom SpecTree World SpecWorld WorldFacts WorldFacts2 WorldFacts3 WorldFacts4 WorldFacts5 WorldExamples
  BoxFacts SpecMotion MotionFacts3.
Open Scope R_scope.

Definition push (t : R) (x : xr) : xr := xadd x (Fin t).
Lemma push_order : forall t a b, xsle (push t a) (push t b) = xsle a b.
Proof. intros t [a| | |] [b| | |]; try reflexivity. cbn. xcase; try reflexivity; exfalso; lra. Qed.
Lemma insert_push : forall t x l, insert_by xsle (push t x) (map (push t) l) = map (push t) (insert_by xsle x l).
Proof. intros t x l. induction l as [|y l IH]; cbn [map insert_by]; [reflexivity|]. rewrite push_order. destruct (xsle x y); cbn [map]; congruence. Qed.
Lemma sort_push : forall t l, sort_by xsle (map (push t) l) = map (push t) (sort_by xsle l).
Proof. intros t l. induction l as [|x l IH]; cbn [map sort_by]; [reflexivity|]. rewrite IH. apply insert_push. Qed.
Lemma nth_push : forall t i l, nth i (map (push t) l) PInf = push t (nth i l PInf).
Proof. intros t i l. exact (map_nth (push t) l PInf i). Qed.
Lemma push_same_order : forall t l, same_order (map (push t) l) l.
Proof. intros t l. split; [apply map_length|]. intros i j. rewrite !nth_push. apply push_order. Qed.
Lemma gather_push : forall t l p, gather PInf (map (push t) l) p = map (push t) (gather PInf l p).
Proof. intros t l p. unfold gather. rewrite map_map. apply map_ext. intro i. apply nth_push. Qed.
Lemma fill_push : forall t mask l, where_fill mask (map (push t) l) PInf = map (push t) (where_fill mask l PInf).
Proof.
  intros t mask l. unfold where_fill. revert mask. induction l as [|x l IH]; intros [|k mask]; cbn [map combine]; try reflexivity.
  rewrite IH. destruct k; reflexivity.
Qed.
Lemma csg_push : forall asort, by_comparison asort -> forall t op l1 l2,
  array_csg xsle PInf asort (map (push t) l1) (map (push t) l2) op = map (push t) (array_csg xsle PInf asort l1 l2 op).
Proof.
  intros asort BC t op l1 l2. unfold array_csg, array_csg_unsorted. rewrite <- map_app, map_length, (BC _ _ (push_same_order t (l1 ++ l2))).
  rewrite gather_push, fill_push, sort_push. reflexivity.
Qed.
Definition push2 (t : R) (a : xr * xr) : xr * xr := (push t (fst a), push t (snd a)).
Lemma sort2_push : forall t a, sort2 (push2 t a) = push2 t (sort2 a).
Proof. intros t [a b]. unfold sort2, push2; cbn [fst snd]. rewrite push_order. destruct (xsle a b); reflexivity. Qed.
Lemma span_push : forall asort, by_comparison asort -> forall t op a b,
  combine_span asort op (push2 t a) (push2 t b) = push2 t (combine_span asort op a b).
Proof.
  intros asort BC t op a b. unfold combine_span. cbn [push2 fst snd].
  change [push t (fst a); push t (snd a)] with (map (push t) [fst a; snd a]).
  change [push t (fst b); push t (snd b)] with (map (push t) [fst b; snd b]). rewrite csg_push by auto.
  destruct (array_csg xsle PInf asort [fst a; snd a] [fst b; snd b] op) as [|x [|y l]]; cbn [map]; try reflexivity.
  apply (sort2_push t (x, y)).
Qed.
Definition push_box (x y z : R) (b : box) : box := Box (push2 x (spanx b)) (push2 y (spany b)) (push2 z (spanz b)).
Lemma csg_box_push : forall asort, by_comparison asort -> forall x y z op a b,
  csg_box asort op (push_box x y z a) (push_box x y z b) = push_box x y z (csg_box asort op a b).
Proof. intros asort BC x y z op a b. destruct op; cbn [csg_box push_box spanx spany spanz]; rewrite ?span_push by auto; reflexivity. Qed.

Lemma fold_min_push : forall t l a, fold_left Rmin (map (fun x => x + t) l) (a + t) = fold_left Rmin l a + t.
Proof.
  intros t l. induction l as [|x l IH]; intro a; cbn [map fold_left]; [reflexivity|]. rewrite <- IH. f_equal.
  unfold Rmin. repeat destruct Rle_dec; lra.
Qed.
Lemma fold_max_push : forall t l a, fold_left Rmax (map (fun x => x + t) l) (a + t) = fold_left Rmax l a + t.
Proof.
  intros t l. induction l as [|x l IH]; intro a; cbn [map fold_left]; [reflexivity|]. rewrite <- IH. f_equal.
  unfold Rmax. repeat destruct Rle_dec; lra.
Qed.
Lemma min_push : forall t l, l <> [] -> list_min (map (fun x => x + t) l) = list_min l + t.
Proof. intros t [|x l] N; [congruence|]. apply fold_min_push. Qed.
Lemma max_push : forall t l, l <> [] -> list_max (map (fun x => x + t) l) = list_max l + t.
Proof. intros t [|x l] N; [congruence|]. apply fold_max_push. Qed.
Lemma shift_coords : forall x y z v, vw v = 1 ->
  vx (mapply (shift x y z) v) = vx v + x /\ vy (mapply (shift x y z) v) = vy v + y /\ vz (mapply (shift x y z) v) = vz v + z.
Proof. intros x y z v H. unfold mapply, shift, vdot; cbn [row0 row1 row2 row3 vx vy vz vw]. rewrite H. repeat split; ring. Qed.
Lemma bounding_points_w : forall p v, In v (bounding_points p) -> vw v = 1.
Proof.
  intros p v I. rewrite bounding_points_alt in I. destruct (prim_corners p) as [[[x0 y0] z0] [[x1 y1] z1]].
  cbn in I. repeat destruct I as [<-|I]; try reflexivity; destruct I.
Qed.
Lemma surf_box_push : forall x y z p w, affine w -> surf_box p (mmul (shift x y z) w) = push_box x y z (surf_box p w).
Proof.
  intros x y z p w A. unfold surf_box, bounding_box.
  assert (NE : map (mapply w) (bounding_points p) <> []) by (intro E; apply map_eq_nil in E; exact (bounding_points_nonempty p E)).
  assert (E : forall f : v4 -> R, forall t, (forall v, vw v = 1 -> f (mapply (shift x y z) v) = f v + t) ->
    map f (map (mapply (mmul (shift x y z) w)) (bounding_points p)) = map (fun r => r + t) (map f (map (mapply w) (bounding_points p)))).
  { intros f t F. rewrite !map_map. apply map_ext_in. intros v I. rewrite mapply_mmul. apply F.
    rewrite affine_w by auto. eapply bounding_points_w; eauto. }
  rewrite (E vx x), (E vy y), (E vz z) by (intros v V; apply (shift_coords x y z v V)).
  set (P := map (mapply w) (bounding_points p)) in *.
  assert (N : forall f : v4 -> R, map f P <> []) by (intros f C; apply map_eq_nil in C; contradiction).
  rewrite !min_push, !max_push by auto. unfold cube_box, push_box; cbn [spanx spany spanz]. f_equal; rewrite <- sort2_push; reflexivity.
Qed.

Lemma push_moved_box : forall x y z b, moved_box (shift x y z) b (push_box x y z b).
Proof.
  intros x y z b. unfold moved_box, side_of, carried_side, shift, push_box; cbn [row0 row1 row2 vx vy vz vw spanx spany spanz].
  split; [left|split; [right; left|right; right]]; (split; [reflexivity|split; [reflexivity|left; split; reflexivity]]).
Qed.

(** the stable sort only compares *)
Lemma insert_idx_order : forall l l' i p, (forall i j, xsle (nth i l PInf) (nth j l PInf) = xsle (nth i l' PInf) (nth j l' PInf)) ->
  insert_idx xsle PInf l i p = insert_idx xsle PInf l' i p.
Proof. intros l l' i p H. induction p as [|j p IH]; cbn [insert_idx]; [reflexivity|]. rewrite H, IH. reflexivity. Qed.
Lemma stable_by_comparison : by_comparison (argsort_stable xsle PInf).
Proof.
  intros l l' (L & H). unfold argsort_stable. rewrite L. induction (seq 0 (length l')) as [|i s IH]; cbn [fold_right]; [reflexivity|].
  rewrite IH. apply insert_idx_order. auto.
Qed.

(** ** One component, read from the heap before and after *)
Definition moved_obj (m : mat) (o o' : obj) : Prop :=
  o_id o' = o_id o /\ o_kind o' = o_kind o /\ o_nscale o' = o_nscale o /\ o_world o' = mmul m (o_world o).
Lemma read_moved_leaf : forall h h' m l o p k, get h l = Some o -> o_kind o = KSurf p k -> all_good h' ->
  (forall o, get h l = Some o -> exists o', get h' l = Some o' /\ moved_obj m o o') -> depth h' = depth h ->
  exists s s', shape_of h l = Some s /\ shape_of h' l = Some s' /\ moved_shape m s s'.
Proof.
  intros h h' m l o p k G K A H D. destruct (H o G) as (o' & G' & (I & K' & N & W)). rewrite K in K'.
  unfold shape_of, depth. cbn [shape_fuel]. rewrite G, G', K, K'. do 2 eexists. split; [reflexivity|]. split; [reflexivity|].
  constructor. unfold moved_surf; cbn [s_id s_prim s_nscale s_mat s_world s_obj]. rewrite I, N. do 5 (split; [auto|]).
  apply (A _ _ G').
Qed.
Lemma read_moved : forall asort, by_comparison asort -> forall x y z h h', all_good h -> all_good h' ->
  forall n l s, shape_fuel n h l = Some s -> (forall f, In f (surface_ids s) -> affine (s_world f)) ->
  (forall a o, In a (parts_upto n h l) -> get h a = Some o -> exists o', get h' a = Some o' /\ moved_obj (shift x y z) o o') ->
  (forall a, In a (parts_upto n h l) -> box_current asort h a /\ box_current asort h' a) ->
  exists s', shape_fuel n h' l = Some s' /\ moved_shape (shift x y z) s s' /\ shape_box s' = push_box x y z (shape_box s).
Proof.
  intros asort BC x y z h h' A A' n. induction n as [|n IH]; intros l s H AF MV CU; [discriminate|].
  cbn [shape_fuel parts_upto] in H, MV, CU |- *.
  destruct (get h l) as [o|] eqn:G; [|discriminate].
  destruct (MV l o (or_introl eq_refl) G) as (o' & G' & (I & K' & N & W)). rewrite G', K'.
  destruct (o_kind o) as [|p k|op a b|ms] eqn:K; try discriminate.
  - injection H as <-. eexists. split; [reflexivity|]. split.
    + constructor. unfold moved_surf; cbn [s_id s_prim s_nscale s_mat s_world s_obj]. rewrite I, N. do 5 (split; [auto|]). apply (A' _ _ G').
    + cbn [shape_box]. destruct (A _ _ G) as (_ & _ & B). destruct (A' _ _ G') as (_ & _ & B'). unfold boxc in B, B'. rewrite K in B. rewrite K' in B'.
      rewrite B, B', W. apply surf_box_push. apply (AF _ (or_introl eq_refl)).
  - destruct (shape_fuel n h a) as [sa|] eqn:Ea; [|discriminate]. destruct (shape_fuel n h b) as [sb|] eqn:Eb; [|discriminate].
    injection H as <-. cbn [children flat_map] in MV, CU. rewrite app_nil_r in MV, CU.
    destruct (IH a sa Ea) as (sa' & Ea' & Ma & Ba); [intros; apply AF; cbn [surface_ids]; apply in_app_iff; auto|intros; apply MV; auto; right; apply in_app_iff; auto|intros; apply CU; right; apply in_app_iff; auto|].
    destruct (IH b sb Eb) as (sb' & Eb' & Mb & Bb); [intros; apply AF; cbn [surface_ids]; apply in_app_iff; auto|intros; apply MV; auto; right; apply in_app_iff; auto|intros; apply CU; right; apply in_app_iff; auto|].
    rewrite Ea', Eb'. eexists. split; [reflexivity|]. destruct (CU l (or_introl eq_refl)) as (C & C').
    destruct (C _ _ _ _ G K) as (ba & bb & X1 & X2 & X3). destruct (C' _ _ _ _ G' K') as (ba' & bb' & Y1 & Y2 & Y3).
    rewrite (shape_box_of _ _ _ _ Ea) in X1. rewrite (shape_box_of _ _ _ _ Eb) in X2.
    rewrite (shape_box_of _ _ _ _ Ea') in Y1. rewrite (shape_box_of _ _ _ _ Eb') in Y2.
    injection X1 as <-. injection X2 as <-. injection Y1 as <-. injection Y2 as <-.
    assert (E : o_box o' = push_box x y z (o_box o)) by (rewrite X3, Y3, Ba, Bb; apply csg_box_push; auto).
    split; [|exact E]. constructor; auto. rewrite E. apply push_moved_box.
Qed.
