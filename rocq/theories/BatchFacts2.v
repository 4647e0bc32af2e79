(** * BatchFacts2: columns of the CSG array code and of the propagate step *)
From Coq Require Import Reals List Bool ZArith Arith Lia Permutation.
Import ListNotations.
From Verif Require Import XR Arr ArrFacts Lin Ops Prim Csg CsgFacts CsgProps Surf World Tracer Batch XRFacts BatchFacts TreeFacts.
Open Scope R_scope.

Lemma combine_map2 : forall A B C D (f : A -> C) (g : B -> D) l m,
  combine (map f l) (map g m) = map (fun p => (f (fst p), g (snd p))) (combine l m).
Proof. induction l as [|x l IH]; intros [|y m]; try reflexivity. cbn. f_equal. apply IH. Qed.

Lemma cumsum_from_length : forall l acc, length (cumsum_from acc l) = length l.
Proof. induction l; intros; cbn; auto. Qed.
Lemma cumsum_len : forall l, length (cumsum l) = length l.
Proof. intros. apply cumsum_from_length. Qed.

Section Sorting.
  Variable asort : list xr -> list nat.
  Hypothesis AS : argsort_ok asort.

  Lemma asort_len : forall l, length (asort l) = length l.
  Proof. intros. destruct (AS l) as [P _]. rewrite (Permutation_length P). apply seq_length. Qed.

  Lemma column_argsort0 : forall a j, column (argsort0 asort a) j = asort (column a j).
  Proof. intros. unfold argsort0. apply column_axis0. rewrite asort_len. apply column_length. Qed.

  Lemma column_cumsum : forall a j, column (axis0 0%Z cumsum a) j = cumsum (column a j).
  Proof. intros. apply column_axis0. rewrite cumsum_len. apply column_length. Qed.

  Lemma csg_column : forall a1 a2 op j,
    column (batch_array_csg asort a1 a2 op) j =
    array_csg_unsorted PInf asort (column a1 j) (column a2 j) op.
  Proof.
    intros a1 a2 op j. unfold batch_array_csg, array_csg_unsorted, where_fill, csg_keep, csg_count, csg_mask.
    cbv zeta. rewrite column_amap2, column_fancy, column_argsort0, column_vstack.
    f_equal. f_equal. rewrite column_length.
    destruct op.
    - rewrite column_amap2, column_roll0, column_cumsum, column_amap, column_argsort0, column_vstack.
      rewrite <- map_roll1, combine_map2, map_map. reflexivity.
    - rewrite column_amap2, column_roll0, !column_amap, column_cumsum, column_amap, column_argsort0, column_vstack.
      rewrite <- map_roll1. reflexivity.
    - rewrite column_amap2, column_roll0, !column_amap, column_cumsum, column_amap, column_argsort0, column_vstack.
      rewrite <- map_roll1. reflexivity.
  Qed.

  Lemma box_mask_column : forall b n rs j, batch_box_mask b n rs j = box_hit b (rs j).
  Proof.
    intros. unfold batch_box_mask, box_hit. rewrite column_amap, cube_column.
    destruct (cube_hits b (rs j)) as [h0 h1]. cbn. rewrite orb_false_r. reflexivity.
  Qed.

  Lemma batch_rows : forall s n rs,
    length (rows (fst (batch_intersect asort s n rs))) = shape_rows s /\
    length (rows (snd (batch_intersect asort s n rs))) = shape_rows s.
  Proof.
    induction s as [f b|nid op b l IHl r IHr]; intros n rs.
    - cbn [batch_intersect fst snd shape_rows].
      set (p := batch_prim _ _ _).
      assert (L : length (rows p) = 2%nat) by apply prim_rows.
      split.
      + rewrite <- (column_length _ _ 0), column_sort0, sort_length, column_length. exact L.
      + rewrite <- (column_length _ _ 0), column_full, repeat_length. exact L.
    - cbn [batch_intersect shape_rows]. cbv zeta. set (mask := batch_box_mask b n rs).
      set (m := length (picked n mask)). set (rs' := select n mask rs).
      destruct (IHl m rs') as [A1 A2]. destruct (IHr m rs') as [B1 B2].
      destruct (batch_intersect asort l m rs') as [lh ls].
      destruct (batch_intersect asort r m rs') as [rh rsf]. cbn [fst snd] in *.
      set (q := batch_array_csg asort lh rh op).
      assert (Q : length (rows q) = (shape_rows l + shape_rows r)%nat).
      { rewrite <- (column_length _ q 0). unfold q. rewrite csg_column.
        unfold array_csg_unsorted. unfold where_fill. rewrite map_length, combine_length.
        unfold gather. rewrite map_length, asort_len, app_length, !column_length.
        assert (K : forall o (p : list nat), length (csg_keep o (length (rows lh)) p) = length p).
        { intros o p. unfold csg_keep, csg_count. destruct o; rewrite map_length, combine_length;
            unfold roll1; rewrite <- ?map_rev; repeat rewrite ?map_length, ?cumsum_len;
            match goal with |- context [match ?x with [] => _ | _ => _ end] =>
              assert (X : length x = length p) by (repeat rewrite ?map_length, ?rev_length, ?map_length, ?cumsum_len; reflexivity);
              destruct x as [|y z]; cbn [length] in *; rewrite ?rev_length; lia end. }
        rewrite K, asort_len, app_length, !column_length. lia. }
      assert (F : forall A (d : A) a, length (rows (fancy d a (argsort0 asort q))) = (shape_rows l + shape_rows r)%nat).
      { intros. rewrite <- (column_length _ _ 0), column_fancy. unfold gather.
        rewrite map_length, column_argsort0, asort_len, column_length. exact Q. }
      cbv zeta. cbn [fst snd]. unfold put, full. cbn [rows]. rewrite !map_length, !combine_length, !repeat_length, !F. lia.
  Qed.

  Theorem batch_column : forall s n rs j, (j < n)%nat ->
    column (fst (batch_intersect asort s n rs)) j = fst (shape_intersect asort s (rs j)) /\
    column (snd (batch_intersect asort s n rs)) j = snd (shape_intersect asort s (rs j)).
  Proof.
    induction s as [f b|nid op b l IHl r IHr]; intros n rs j J.
    - cbn [batch_intersect shape_intersect fst snd]. split.
      + rewrite column_sort0, prim_column by exact J. unfold surf_hits, col2.
        set (p := prim_hits _ _). destruct p as [x y]. cbn [fst snd]. rewrite sort_two.
        destruct (sort2 (x, y)); reflexivity.
      + rewrite column_full, prim_rows. reflexivity.
    - cbn [shape_intersect].
      pose proof (batch_rows (Node nid op b l r) n rs) as BR. cbn [batch_intersect] in BR |- *. cbv zeta in BR |- *.
      set (mask := batch_box_mask b n rs) in *. set (m := length (picked n mask)) in *.
      set (rs' := select n mask rs) in *.
      destruct (batch_rows l m rs') as [A1 A2]. destruct (batch_rows r m rs') as [B1 B2].
      pose proof (IHl m rs') as Hl. pose proof (IHr m rs') as Hr.
      destruct (batch_intersect asort l m rs') as [lh ls].
      destruct (batch_intersect asort r m rs') as [rh rsf]. cbn [fst snd] in *.
      set (q := batch_array_csg asort lh rh op) in *.
      assert (F : forall (d : xr), length (rows (fancy d q (argsort0 asort q))) = (shape_rows l + shape_rows r)%nat).
      { intros. rewrite <- (column_length _ _ 0), column_fancy. unfold gather.
        rewrite map_length, column_argsort0, asort_len, column_length.
        destruct BR as [BR _]. unfold put, full in BR. cbn [rows shape_rows] in BR.
        rewrite map_length, combine_length, repeat_length in BR.
        rewrite <- (column_length _ _ 0), column_fancy in BR. unfold gather in BR.
        rewrite map_length, column_argsort0, asort_len, column_length in BR. lia. }
      rewrite !column_put.
      2:{ unfold full. cbn [rows]. rewrite repeat_length.
          rewrite <- !(column_length _ _ 0), !column_fancy. unfold gather. rewrite !map_length. reflexivity. }
      2:{ unfold full. cbn [rows]. rewrite repeat_length. reflexivity. }
      rewrite !column_full, F.
      rewrite <- (box_mask_column b n rs j). fold mask.
      destruct (mask j) eqn:M; [|split; reflexivity].
      destruct (picked_nth n mask j J M) as [K N]. fold m in K.
      set (k := length (picked j mask)) in *.
      destruct (Hl k K) as [L1 L2]. destruct (Hr k K) as [R1 R2].
      assert (E : rs' k = rs j) by (unfold rs', select; rewrite N; reflexivity).
      rewrite E in L1, L2, R1, R2.
      destruct (shape_intersect asort l (rs j)) as [lc lcs].
      destruct (shape_intersect asort r (rs j)) as [rc rcs]. cbn [fst snd] in *.
      unfold csg_combine. cbn [fst snd].
      rewrite !column_fancy, !column_argsort0, !column_vstack.
      unfold q. rewrite csg_column, L1, L2, R1, R2. split; reflexivity.
  Qed.

  Lemma width_clip : forall a b n, width a = n -> width b = n ->
    length (rows a) = 2%nat -> length (rows b) = 2%nat -> width (batch_clip a b) = n.
  Proof.
    intros a b n Wa Wb La Lb. unfold batch_clip, where_else, reshape, sort0, axis0, hstack. cbn [width rows].
    repeat rewrite ?map_length, ?seq_length, ?combine_length. rewrite La, Lb, Wa, Wb.
    cbn [Nat.min]. replace (2 * (n + n))%nat with (n * 4)%nat by lia. apply Nat.div_mul. lia.
  Qed.

  Lemma width_prim : forall p n rs, width (batch_prim p n rs) = n.
  Proof.
    intros p n rs. destruct p as [r|r lo hi c|c0 c1|f h|w l]; cbn [batch_prim]; try reflexivity;
      try (apply width_clip; reflexivity).
    unfold batch_cube. cbv zeta. destruct (fold_left _ _ _) as [nh hs]. reflexivity.
  Qed.

  Lemma batch_width : forall s n rs,
    width (fst (batch_intersect asort s n rs)) = n /\ width (snd (batch_intersect asort s n rs)) = n.
  Proof.
    intros [f b|nid op b l r] n rs.
    - cbn [batch_intersect fst snd]. unfold sort0, axis0, full. cbn [width]. rewrite !width_prim. auto.
    - cbn [batch_intersect]. destruct (batch_intersect asort l _ _). destruct (batch_intersect asort r _ _).
      split; reflexivity.
  Qed.

  Lemma propagate_column : forall comps n rs j, (j < n)%nat ->
    forall c, c_ray c = rs j ->
    (fst (batch_propagate asort comps n rs) j, snd (batch_propagate asort comps n rs) j) =
    propagate asort comps c.
  Proof.
    intros comps n rs j J c C. unfold batch_propagate, propagate. rewrite C.
    set (st := ((fun _ : nat => PInf), (fun _ : nat => (-1)%Z))).
    replace (PInf, (-1)%Z) with (fst st j, snd st j) by reflexivity.
    generalize st. clear st. induction comps as [|s comps IH]; intros [hd hs]; [reflexivity|].
    cbn [fold_left]. rewrite IH. f_equal.
    unfold batch_propagate_shape, propagate_shape.
    destruct (batch_column s n rs j J) as [E1 E2].
    destruct (batch_intersect asort s n rs) as [bh bs]. destruct (shape_intersect asort s (rs j)) as [h f].
    cbn [fst snd] in *. rewrite !row_column, !column_amap, E1, E2.
    destruct (xltb _ _); reflexivity.
  Qed.
End Sorting.
