(** * BatchFacts: every column of the array code is the one-ray model *)
From Coq Require Import Reals List Bool ZArith Arith Lia Permutation.
Import ListNotations.
From Verif Require Import XR Arr ArrFacts Lin Ops Prim Csg Surf World Tracer Batch XRFacts.
Open Scope R_scope.

(** ** Columns of array operations *)
Lemma row_column : forall A (d : A) a i j, row d a i j = nth i (column a j) d.
Proof.
  intros A d a i j. unfold row, column.
  change (nth i (map (fun r : nat -> A => r j) (rows a)) d)
    with (nth i (map (fun r : nat -> A => r j) (rows a)) ((fun r : nat -> A => r j) (fun _ => d))).
  rewrite map_nth. reflexivity.
Qed.

Lemma column_length : forall A (a : arr A) j, length (column a j) = length (rows a).
Proof. intros. unfold column. apply map_length. Qed.

Lemma map_nth_seq : forall A (d : A) l, map (fun i => nth i l d) (seq 0 (length l)) = l.
Proof.
  intros A d l. induction l as [|x l IH]; [reflexivity|].
  cbn [length seq map]. rewrite <- seq_shift, map_map. cbn [nth]. f_equal. exact IH.
Qed.

Lemma column_axis0 : forall A B (d : B) (f : list A -> list B) a j,
  length (f (column a j)) = length (rows a) -> column (axis0 d f a) j = f (column a j).
Proof.
  intros A B d f a j H. unfold column at 1, axis0. cbn [rows]. rewrite map_map.
  rewrite <- H. apply map_nth_seq.
Qed.

Lemma column_sort0 : forall a j, column (sort0 a) j = sort_by xsle (column a j).
Proof.
  intros. unfold sort0. apply column_axis0. rewrite sort_length. apply column_length.
Qed.

Lemma column_vstack : forall A (a b : arr A) j, column (vstack a b) j = column a j ++ column b j.
Proof. intros. unfold column, vstack. cbn [rows]. apply map_app. Qed.

Lemma column_amap : forall A B (f : A -> B) a j, column (amap f a) j = map f (column a j).
Proof. intros. unfold column, amap. cbn [rows]. rewrite !map_map. reflexivity. Qed.

Lemma column_amap2 : forall A B C (f : A -> B -> C) a b j,
  column (amap2 f a b) j = map (fun p => f (fst p) (snd p)) (combine (column a j) (column b j)).
Proof.
  intros A B C f a b j. unfold column, amap2. cbn [rows]. rewrite map_map.
  generalize (rows b). induction (rows a) as [|x l IH]; intros [|y m]; try reflexivity.
  cbn [combine map]. f_equal. apply IH.
Qed.

Lemma column_fancy : forall A (d : A) a idx j,
  column (fancy d a idx) j = gather d (column a j) (column idx j).
Proof.
  intros. unfold column at 1, fancy, gather. cbn [rows].
  replace (column idx j) with (map (fun r : nat -> nat => r j) (rows idx)) by reflexivity.
  rewrite !map_map. apply map_ext. intro ix. apply row_column.
Qed.

Lemma map_roll1 : forall A B (f : A -> B) l, map f (roll1 l) = roll1 (map f l).
Proof.
  intros. unfold roll1. rewrite <- map_rev. destruct (rev l); [reflexivity|].
  cbn [map]. rewrite map_rev. reflexivity.
Qed.

Lemma column_roll0 : forall A (a : arr A) j, column (roll0 a) j = roll1 (column a j).
Proof. intros. unfold column, roll0. cbn [rows]. apply map_roll1. Qed.

Lemma column_full : forall A k n (x : A) j, column (full k n x) j = repeat x k.
Proof.
  intros. unfold column, full. cbn [rows]. induction k; [reflexivity|]. cbn. f_equal. exact IHk.
Qed.

Lemma column_where_else : forall A cond (a : arr A) x j,
  column (where_else cond a x) j = map (fun y => if cond j then y else x) (column a j).
Proof. intros. unfold column, where_else. cbn [rows]. rewrite !map_map. reflexivity. Qed.

Lemma column_where_then : forall A cond (a : arr A) x j,
  column (where_then cond x a) j = map (fun y => if cond j then x else y) (column a j).
Proof. intros. unfold column, where_then. cbn [rows]. rewrite !map_map. reflexivity. Qed.

Lemma replace_nth_map : forall A B (f : A -> B) i x l,
  map f (replace_nth i x l) = replace_nth i (f x) (map f l).
Proof. intros A B f i x l. revert i. induction l; intros [|i]; cbn; try reflexivity. f_equal. apply IHl. Qed.

Lemma replace_nth_length : forall A i (x : A) l, length (replace_nth i x l) = length l.
Proof. intros A i x l. revert i. induction l; intros [|i]; cbn; try reflexivity. f_equal. apply IHl. Qed.

Lemma column_set_row : forall A i (r : nat -> A) a j,
  column (set_row i r a) j = replace_nth i (r j) (column a j).
Proof. intros. unfold column, set_row. cbn [rows]. apply (replace_nth_map _ _ (fun r : nat -> A => r j)). Qed.

Lemma sort_two : forall x y, sort_by xsle [x; y] = [fst (sort2 (x, y)); snd (sort2 (x, y))].
Proof. intros. unfold sort2. cbn. destruct (xsle x y); reflexivity. Qed.

Lemma sort2_idem : forall p, sort2 (sort2 p) = sort2 p.
Proof.
  intros [x y]. unfold sort2. cbn [fst snd].
  destruct (xsle x y) eqn:E; cbn [fst snd]; [rewrite E; reflexivity|].
  destruct (xsle_total x y) as [H|H]; [congruence|]. rewrite H. reflexivity.
Qed.

(** ** hstack, sort, reshape *)
Lemma column_hstack_l : forall A (a b : arr A) j,
  length (rows a) = length (rows b) -> (j < width a)%nat -> column (hstack a b) j = column a j.
Proof.
  intros A a b j L H. unfold column, hstack. cbn [rows]. rewrite map_map.
  apply Nat.ltb_lt in H. rewrite H. revert L. generalize (rows b).
  induction (rows a) as [|x l IH]; intros [|y m] L; try discriminate; [reflexivity|].
  cbn [combine map fst snd]. f_equal. apply IH. injection L; auto.
Qed.

Lemma column_hstack_r : forall A (a b : arr A) j,
  length (rows a) = length (rows b) -> column (hstack a b) (width a + j) = column b j.
Proof.
  intros A a b j L. unfold column, hstack. cbn [rows]. rewrite map_map.
  replace (width a + j <? width a)%nat with false by (symmetry; apply Nat.ltb_ge; lia).
  replace (width a + j - width a)%nat with j by lia.
  revert L. generalize (rows b).
  induction (rows a) as [|x l IH]; intros [|y m] L; try discriminate; [reflexivity|].
  cbn [combine map fst snd]. f_equal. apply IH. injection L; auto.
Qed.

(** a (2, 2n) array reshaped to four rows *)
Lemma column_reshape4 : forall (a : arr xr) n j, width a = (n + n)%nat -> length (rows a) = 2%nat ->
  (j < n)%nat ->
  width (reshape PInf 4 a) = n /\
  column (reshape PInf 4 a) j =
    [nth 0 (column a j) PInf; nth 0 (column a (n + j)) PInf;
     nth 1 (column a j) PInf; nth 1 (column a (n + j)) PInf].
Proof.
  intros a n j W L J.
  assert (E : (length (rows a) * width a / 4 = n)%nat).
  { rewrite W, L. replace (2 * (n + n))%nat with (n * 4)%nat by lia. apply Nat.div_mul. lia. }
  unfold reshape. rewrite E. cbn [width]. split; [reflexivity|].
  unfold column at 1. cbn [rows seq map]. rewrite !row_column, !W.
  assert (D : forall q r, (r < n + n)%nat ->
             ((q * (n + n) + r) / (n + n) = q /\ (q * (n + n) + r) mod (n + n) = r)%nat).
  { intros q r R. split.
    - rewrite Nat.div_add_l by lia. rewrite Nat.div_small by lia. lia.
    - rewrite Nat.add_comm, Nat.mod_add by lia. apply Nat.mod_small. lia. }
  replace (0 * n + j)%nat with (0 * (n + n) + j)%nat by lia.
  replace (1 * n + j)%nat with (0 * (n + n) + (n + j))%nat by lia.
  replace (2 * n + j)%nat with (1 * (n + n) + j)%nat by lia.
  replace (3 * n + j)%nat with (1 * (n + n) + (n + j))%nat by lia.
  destruct (D 0%nat j ltac:(lia)) as [-> ->]. destruct (D 0%nat (n + j)%nat ltac:(lia)) as [-> ->].
  destruct (D 1%nat j ltac:(lia)) as [-> ->]. destruct (D 1%nat (n + j)%nat ltac:(lia)) as [-> ->].
  reflexivity.
Qed.

(** ** Primitives *)
Definition col2 (p : xr * xr) : list xr := [fst p; snd p].

Lemma clip_column : forall a b n j (p q : xr * xr), width a = n -> width b = n ->
  length (rows a) = 2%nat -> length (rows b) = 2%nat -> (j < n)%nat ->
  column a j = col2 p -> column b j = col2 q ->
  column (batch_clip a b) j = col2 (clip_hits p q).
Proof.
  intros a b n j p q Wa Wb La Lb J Pa Qb.
  unfold batch_clip. cbv zeta.
  set (h := sort0 (hstack a b)).
  assert (Wh : width h = (n + n)%nat) by (unfold h, sort0, axis0, hstack; cbn [width]; lia).
  assert (Lh : length (rows h) = 2%nat).
  { unfold h, sort0, axis0. cbn [rows]. rewrite map_length, seq_length.
    unfold hstack. cbn [rows]. rewrite map_length, combine_length. lia. }
  destruct (column_reshape4 h n j Wh Lh J) as [_ C].
  assert (Hl : column h j = col2 (sort2 p)).
  { unfold h. rewrite column_sort0, column_hstack_l by lia. rewrite Pa. destruct p. apply sort_two. }
  assert (Hr : column h (n + j) = col2 (sort2 q)).
  { unfold h. rewrite column_sort0, <- Wa, column_hstack_r by lia. rewrite Qb. destruct q. apply sort_two. }
  rewrite Hl, Hr in C. cbn [col2 nth] in C.
  rewrite column_where_else. cbn beta. rewrite !row_column.
  set (r := reshape PInf 4 h) in *.
  assert (Cm : forall x y : nat -> xr, column (Arr (width r) [x; y]) j = [x j; y j]) by reflexivity.
  rewrite Cm. cbn [nth].
  assert (T : column (top_rows 2 r) j = firstn 2 (column r j))
    by (unfold column, top_rows; cbn [rows]; rewrite firstn_map; reflexivity).
  assert (B : column (bottom_rows 2 r) j = skipn 2 (column r j))
    by (unfold column, bottom_rows; cbn [rows]; rewrite skipn_map; reflexivity).
  unfold max0, min0. rewrite T, B, C. cbn [firstn skipn fold1 fold_left].
  unfold clip_hits. destruct (sort2 p) as [a0 a1]. destruct (sort2 q) as [b0 b1]. cbn [fst snd map].
  destruct (xleb (xmax a0 b0) (xmin a1 b1)); reflexivity.
Qed.

Lemma column_two : forall A (a : arr A) n (x y : nat -> A) j, column (Arr n [x; y]) j = [x j; y j].
Proof. reflexivity. Qed.

Ltac shape_done := repeat (unfold sort0, axis0, where_else, where_then, where_row, set_row, set_row_slice, full;
   cbn [rows width]; rewrite ?map_length, ?seq_length, ?replace_nth_length, ?combine_length, ?repeat_length); reflexivity.

Lemma sphere_column : forall rad n rs j,
  column (batch_sphere rad n rs) j = col2 (sphere_hits rad (rs j)).
Proof.
  intros. unfold batch_sphere, sphere_hits. cbv zeta. rewrite column_where_else.
  unfold column, dir, org. cbn [rows map dot_rows].
  rewrite !Rplus_0_l. destruct (rleb 0 _); reflexivity.
Qed.

Lemma binomial_column : forall n a b c j,
  column (batch_binomial_root n a b c) j = col2 (binomial_root (a j) (b j) (c j)).
Proof.
  intros. unfold batch_binomial_root, binomial_root. cbv zeta. rewrite column_set_row.
  rewrite row_column, column_where_then. unfold where_row.
  unfold column, where_else. cbn [rows map combine fst snd].
  destruct (rleb 0 _), (isclose (a j) 0), (isclose (b j) 0), (rleb (c j) 0); reflexivity.
Qed.

Lemma z_clip_column : forall lo hi n rs j,
  column (batch_z_clip lo hi n rs) j = col2 (z_clip lo hi (vz (origin (rs j))) (vz (direction (rs j)))).
Proof.
  intros. unfold batch_z_clip, z_clip. cbv zeta. rewrite column_set_row.
  rewrite row_column, column_where_then, !column_set_row, column_full.
  unfold dir, org. cbn [repeat replace_nth map nth].
  destruct (isclose _ 0), (rleb lo _), (rleb _ hi); reflexivity.
Qed.

Lemma cylinder_column : forall rad lo hi n rs j, (j < n)%nat ->
  column (batch_cylinder rad lo hi n rs) j = col2 (cylinder_hits rad lo hi (rs j)).
Proof.
  intros rad lo hi n rs j J. unfold batch_cylinder, cylinder_hits. cbv zeta.
  erewrite clip_column with (n := n); [reflexivity|..]; try reflexivity; try exact J.
  - rewrite column_sort0, binomial_column. unfold dir, org. cbn [dot_rows]. rewrite !Rplus_0_l.
    set (p := binomial_root _ _ _). destruct p. apply sort_two.
  - apply z_clip_column.
Qed.

Lemma paraboloid_column : forall f h n rs j, (j < n)%nat ->
  column (batch_paraboloid f h n rs) j = col2 (paraboloid_hits f h (rs j)).
Proof.
  intros f h n rs j J. unfold batch_paraboloid, paraboloid_hits. cbv zeta.
  erewrite clip_column with (n := n); [reflexivity|..]; try reflexivity; try exact J.
  - rewrite column_sort0. unfold parabola_hits. cbv zeta. unfold where_row, where_else, set_row, full, column, dir, org.
    cbn [rows repeat replace_nth map combine fst snd dot_rows]. rewrite !Rplus_0_l.
    rewrite sort_two. unfold col2.
    match goal with |- context [if ?x then (?y, ?z) else (PInf, PInf)] => destruct x end;
      destruct (isclose _ 0); reflexivity.
  - apply z_clip_column.
Qed.

Lemma plane_column : forall w l n rs j, (j < n)%nat ->
  column (batch_plane w l n rs) j = col2 (plane_hits w l (rs j)).
Proof.
  intros w l n rs j J. unfold batch_plane. cbv zeta.
  set (b0 := batch_plane_axis n rs 0 w (full 2 (2 * n) PInf)).
  set (b1 := batch_plane_axis n rs 1 l b0).
  assert (Wb : width (sort0 b1) = (n + n)%nat)
    by (unfold b1, b0, batch_plane_axis, sort0, axis0, set_row_slice, set_row, full; cbn [width]; lia).
  assert (Lb : length (rows (sort0 b1)) = 2%nat) by reflexivity.
  destruct (column_reshape4 (sort0 b1) n j Wb Lb J) as [_ C].
  assert (Hx : column (sort0 b1) j = col2 (plane_axis_hits w (vx (origin (rs j))) (vx (direction (rs j))))).
  { rewrite column_sort0. unfold b1, b0, batch_plane_axis. cbv zeta.
    unfold set_row_slice. rewrite !column_set_row, !row_column, !column_set_row, !row_column, !column_set_row,
      !row_column, !column_set_row, !row_column, column_full.
    replace (1 * n <=? j)%nat with false by (symmetry; apply Nat.leb_gt; lia).
    replace (0 * n <=? j)%nat with true by (symmetry; apply Nat.leb_le; lia).
    replace (j <? (1 + 0) * n)%nat with true by (symmetry; apply Nat.ltb_lt; lia).
    replace (j - 0 * n)%nat with j by lia.
    cbn [andb repeat replace_nth nth]. rewrite sort_two. reflexivity. }
  assert (Hy : column (sort0 b1) (n + j) = col2 (plane_axis_hits l (vy (origin (rs j))) (vy (direction (rs j))))).
  { rewrite column_sort0. unfold b1, b0, batch_plane_axis. cbv zeta.
    unfold set_row_slice. rewrite !column_set_row, !row_column, !column_set_row, !row_column, !column_set_row,
      !row_column, !column_set_row, !row_column, column_full.
    replace (1 * n <=? n + j)%nat with true by (symmetry; apply Nat.leb_le; lia).
    replace (n + j <? (1 + 1) * n)%nat with true by (symmetry; apply Nat.ltb_lt; lia).
    replace (n + j - 1 * n)%nat with j by lia.
    cbn [andb repeat replace_nth nth]. rewrite sort_two. reflexivity. }
  rewrite Hx, Hy in C. set (r := reshape PInf 4 (sort0 b1)) in *.
  assert (T : forall r : arr xr, column (top_rows 2 r) j = firstn 2 (column r j))
    by (intros; unfold column, top_rows; cbn [rows]; rewrite firstn_map; reflexivity).
  assert (B : forall r : arr xr, column (bottom_rows 2 r) j = skipn 2 (column r j))
    by (intros; unfold column, bottom_rows; cbn [rows]; rewrite skipn_map; reflexivity).
  rewrite (column_two _ r). cbv beta. rewrite !row_column.
  repeat rewrite ?column_vstack, ?column_sort0, ?T, ?B. rewrite C.
  unfold plane_hits. cbv zeta.
  destruct (plane_axis_hits w _ _) as [x0 x1]. destruct (plane_axis_hits l _ _) as [y0 y1].
  cbn [col2 fst snd nth firstn skipn]. rewrite !sort_two. cbn [app firstn skipn]. rewrite sort_two.
  cbn [app nth]. reflexivity.
Qed.

Lemma cube_column : forall b n rs j,
  column (batch_cube b n rs) j = col2 (cube_hits b (rs j)).
Proof.
  intros b n rs j. unfold batch_cube. cbv zeta.
  assert (S : forall nh hits axis, length (rows nh) = 2%nat ->
    let st := batch_cube_axis b rs (nh, hits) axis in
    let p := cube_axis_hits (span b axis) (org rs axis j) (dir rs axis j) in
    length (rows (fst st)) = 2%nat /\
    column (snd st) j = replace_nth (3 + axis) (snd p) (replace_nth axis (fst p) (column hits j))).
  { intros nh hits axis L. unfold batch_cube_axis, cube_axis_hits. destruct (span b axis) as [lo hi].
    cbv zeta. cbn [fst snd]. split.
    - unfold sort0, axis0. cbn [rows]. rewrite map_length, seq_length.
      unfold set_row. cbn [rows]. rewrite !replace_nth_length. exact L.
    - rewrite !column_set_row, !row_column, !column_sort0, !column_set_row.
      destruct (column nh j) as [|u [|v [|? ?]]] eqn:E;
        try (assert (X := column_length _ nh j); rewrite E, L in X; discriminate X).
      cbn [replace_nth]. rewrite !sort_two. reflexivity. }
  cbn [fold_left].
  set (st0 := (full 2 n (Fin 0), full 6 n (Fin (-1)))).
  destruct (batch_cube_axis b rs st0 0) as [n1 h1] eqn:E1.
  destruct (batch_cube_axis b rs (n1, h1) 1) as [n2 h2] eqn:E2.
  destruct (batch_cube_axis b rs (n2, h2) 2) as [n3 h3] eqn:E3.
  pose proof (S (full 2 n (Fin 0)) (full 6 n (Fin (-1))) 0%nat eq_refl) as H1.
  unfold st0 in E1. rewrite E1 in H1. cbv zeta in H1. cbn [fst snd] in H1. destruct H1 as [L1 C1].
  pose proof (S n1 h1 1%nat L1) as H2. rewrite E2 in H2. cbv zeta in H2. cbn [fst snd] in H2. destruct H2 as [L2 C2].
  pose proof (S n2 h2 2%nat L2) as H3. rewrite E3 in H3. cbv zeta in H3. cbn [fst snd] in H3. destruct H3 as [L3 C3].
  rewrite C2, C1, column_full in C3. clear C1 C2 E1 E2 E3 S.
  cbn [repeat replace_nth Nat.add] in C3.
  rewrite column_where_else, !row_column, !column_set_row, column_full, L3.
  unfold max0, min0.
  assert (T : column (top_rows 3 h3) j = firstn 3 (column h3 j))
    by (unfold column, top_rows; cbn [rows]; rewrite firstn_map; reflexivity).
  assert (B : column (bottom_rows 3 h3) j = skipn 3 (column h3 j))
    by (unfold column, bottom_rows; cbn [rows]; rewrite skipn_map; reflexivity).
  rewrite T, B, C3. cbn [repeat replace_nth firstn skipn fold1 fold_left nth map].
  unfold cube_hits. cbv zeta. unfold org, dir, span.
  destruct (cube_axis_hits (spanx b) _ _) as [x0 x1].
  destruct (cube_axis_hits (spany b) _ _) as [y0 y1].
  destruct (cube_axis_hits (spanz b) _ _) as [z0 z1]. cbn [fst snd].
  destruct (xltb _ _); reflexivity.
Qed.

Lemma prim_column : forall p n rs j, (j < n)%nat ->
  column (batch_prim p n rs) j = col2 (prim_hits p (rs j)).
Proof.
  intros [] n rs j J; cbn [batch_prim prim_hits].
  - apply sphere_column.
  - apply cylinder_column; exact J.
  - apply cube_column.
  - apply paraboloid_column; exact J.
  - apply plane_column; exact J.
Qed.

Lemma prim_rows : forall p n rs, length (rows (batch_prim p n rs)) = 2%nat.
Proof.
  intros p n rs. destruct p as [r|r lo hi c|c0 c1|f h|w l]; cbn [batch_prim]; try reflexivity.
  rewrite <- (column_length _ _ 0). rewrite cube_column. reflexivity.
Qed.

(** ** Boolean masks *)
Lemma picked_nth : forall n mask j, (j < n)%nat -> mask j = true ->
  (length (picked j mask) < length (picked n mask))%nat /\
  nth (length (picked j mask)) (picked n mask) 0%nat = j.
Proof.
  intros n mask j J M. unfold picked.
  replace n with (j + (1 + (n - j - 1)))%nat by lia.
  rewrite seq_app, filter_app, app_length. cbn [Nat.add seq filter]. rewrite M. cbn [length].
  split; [lia|]. rewrite app_nth2 by lia. rewrite Nat.sub_diag. reflexivity.
Qed.

Lemma column_put : forall A mask (b a : arr A) j, length (rows a) = length (rows b) ->
  column (put mask b a) j = if mask j then column b (length (picked j mask)) else column a j.
Proof.
  intros A mask b a j L. unfold column, put. cbn [rows]. rewrite map_map.
  revert L. generalize (rows a).
  induction (rows b) as [|x l IH]; intros [|y m] L; try discriminate.
  - destruct (mask j); reflexivity.
  - cbn [combine map fst snd]. rewrite IH by (injection L; auto). destruct (mask j); reflexivity.
Qed.
