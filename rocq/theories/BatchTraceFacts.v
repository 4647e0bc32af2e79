(** * BatchTraceFacts: the arrays of BatchTracer column by column *)
From Coq Require Import Reals List Bool ZArith Arith Lia Lra.
Import ListNotations.
From Verif Require Import XR XRFacts Arr Lin LinFacts Ops Prim Csg Surf World Tracer Batch BatchFacts BatchFacts2 BatchOps BatchOpsFacts
  RaySet SpecRaySet RaySetFacts RaySetProps BatchTracer SpecArray.
Open Scope R_scope.

Lemma numbers_nth : forall c f, field_ok f -> nth (frow f) (numbers c) 0 = field_of c f.
Proof.
  intros c [k a| | | | |] F; try reflexivity. cbn in F. destruct F as [K A].
  destruct k as [|[|k]]; [| |lia]; destruct a as [|[|[|[|a]]]]; try lia; reflexivity.
Qed.

Lemma list13_ext : forall A (d : A) l m, length l = 13%nat -> length m = 13%nat ->
  (forall i, (i < 13)%nat -> nth i l d = nth i m d) -> l = m.
Proof. intros A d l m L M H. apply (nth_ext l m d d); [congruence|]. intros i I. apply H. lia. Qed.

Definition fields : list field :=
  [Coord 0 0; Coord 0 1; Coord 0 2; Coord 0 3; Coord 1 0; Coord 1 1; Coord 1 2; Coord 1 3;
   Generation; Intensity; Wavelength; Index; Id].
Lemma field_at : forall i, (i < 13)%nat -> exists f, field_ok f /\ frow f = i.
Proof.
  intros i I. exists (nth i fields Id).
  do 13 (destruct i as [|i]; [split; cbn; try lia; reflexivity || exact Logic.I|]). lia.
Qed.

Lemma holds_column : forall rs cs, holds rs cs -> forall j c, nth_error cs j = Some c ->
  column rs j = numbers c.
Proof.
  intros rs cs (L & W & H) j c E. apply (list13_ext _ 0).
  - rewrite column_length. exact L.
  - reflexivity.
  - intros i I. destruct (field_at i I) as (f & F & <-). rewrite numbers_nth by exact F.
    rewrite <- row_column, <- get_row.
    + apply H; auto.
    + exact F.
    + rewrite W. apply nth_error_Some. congruence.
Qed.
Lemma column_holds : forall rs cs, is_rayset rs -> width rs = length cs ->
  (forall j c, nth_error cs j = Some c -> column rs j = numbers c) -> holds rs cs.
Proof.
  intros rs cs L W H. split; [exact L|]. split; [exact W|]. intros j c f E F.
  assert (J : (j < width rs)%nat) by (rewrite W; apply nth_error_Some; congruence).
  rewrite get_row by auto. rewrite row_column, (H j c E). apply numbers_nth. exact F.
Qed.

(** *** Views *)
Lemma view_column : forall (rs : arr xr) k axis j, (k < 2)%nat -> (axis < 4)%nat -> (j < width rs)%nat ->
  view_item NaN rs k axis j = nth (4 * k + axis) (column rs j) NaN.
Proof.
  intros rs k a j K A J. unfold view_item, top_rows, row. cbn [rows].
  rewrite Nat.div_add_l by lia. rewrite Nat.div_small by lia.
  replace (((4 * k + a) * width rs + j) mod width rs)%nat with j.
  2:{ rewrite Nat.add_comm, Nat.mod_add by lia. symmetry. apply Nat.mod_small. lia. }
  rewrite Nat.add_0_r, nth_firstn_in by lia. rewrite <- row_column. reflexivity.
Qed.

Lemma part_column : forall k rs j, (k < 2)%nat -> (j < width rs)%nat ->
  column (part k rs) j = map (fun a => nth (4 * k + a) (column rs j) NaN) (seq 0 4).
Proof.
  intros k rs j K J. unfold part, column at 1. cbn [rows seq map].
  rewrite !view_column by lia. reflexivity.
Qed.

Lemma set_ray_row_rows : forall k a r (rs : arr xr), length (rows (set_ray_row k a r rs)) = length (rows rs).
Proof. intros. unfold set_ray_row. cbn [rows]. rewrite map_length, combine_length, seq_length. lia. Qed.

Lemma set_ray_row_column : forall k a r (rs : arr xr) j, length (rows rs) = 13%nat ->
  (k < 2)%nat -> (a < 4)%nat -> (j < width rs)%nat ->
  column (set_ray_row k a r rs) j = replace_nth (4 * k + a) (r j) (column rs j).
Proof.
  intros k a r rs j L K A J. apply (list13_ext _ NaN).
  - rewrite column_length, set_ray_row_rows. exact L.
  - rewrite replace_nth_length, column_length. exact L.
  - intros i I. rewrite nth_replace_nth by (rewrite column_length; lia).
    unfold column, set_ray_row. cbn [rows]. set (n := width rs) in *. rewrite map_map.
    set (g := fun (q : nat * (nat -> xr)) => _).
    assert (E : nth i (map g (combine (seq 0 (length (rows rs))) (rows rs))) NaN = g (i, nth i (rows rs) (fun _ => NaN))).
    { rewrite (nth_indep _ NaN (g (0%nat, fun _ => NaN))) by (rewrite map_length, combine_length, seq_length; lia).
      rewrite map_nth, combine_nth by apply seq_length. rewrite seq_nth by lia. reflexivity. }
    rewrite E. unfold g. cbn [fst snd].
    assert (N : nth i (map (fun r0 : nat -> xr => r0 j) (rows rs)) NaN = nth i (rows rs) (fun _ => NaN) j).
    { rewrite <- (map_nth (fun r0 : nat -> xr => r0 j)). reflexivity. }
    rewrite N. destruct (Nat.eqb_spec i (4 * k + a)) as [->|D].
    + replace ((4 * k + a) * n <=? (4 * k + a) * n + j)%nat with true by (symmetry; apply Nat.leb_le; lia).
      replace ((4 * k + a) * n + j <? (4 * k + a) * n + n)%nat with true by (symmetry; apply Nat.ltb_lt; lia).
      replace (4 * k + a <? 8)%nat with true by (symmetry; apply Nat.ltb_lt; lia).
      cbn [andb]. f_equal. lia.
    + replace (((4 * k + a) * n <=? i * n + j) && (i * n + j <? (4 * k + a) * n + n))%nat%bool with false; [reflexivity|].
      symmetry. destruct (Nat.leb_spec ((4 * k + a) * n) (i * n + j)); cbn [andb]; [|reflexivity].
      apply Nat.ltb_ge. assert (i > 4 * k + a)%nat by nia. nia.
Qed.

(** a 13-row array *)
Definition rows13 (rs : arr xr) : Prop := length (rows rs) = 13%nat.
Lemma rows13_set : forall k a r rs, rows13 rs -> rows13 (set_ray_row k a r rs).
Proof. intros. unfold rows13. rewrite set_ray_row_rows. exact H. Qed.

Lemma set_part_shape : forall k u rs, rows13 rs ->
  rows13 (set_part k u rs) /\ width (set_part k u rs) = width rs.
Proof. intros k u rs L. unfold set_part. cbn [seq fold_left]. split; [|reflexivity]. repeat apply rows13_set. exact L. Qed.
Lemma set_part_column : forall k u rs j, rows13 rs -> (k < 2)%nat -> (j < width rs)%nat ->
  column (set_part k u rs) j =
  replace_nth (4 * k + 3) (row NaN u 3 j) (replace_nth (4 * k + 2) (row NaN u 2 j)
    (replace_nth (4 * k + 1) (row NaN u 1 j) (replace_nth (4 * k + 0) (row NaN u 0 j) (column rs j)))).
Proof.
  intros k u rs j L K J. unfold set_part. cbn [seq fold_left].
  rewrite !set_ray_row_column; auto; try lia; repeat apply rows13_set; exact L.
Qed.

Lemma set_part_masked_shape : forall k mask u rs, rows13 rs ->
  rows13 (set_part_masked k mask u rs) /\ width (set_part_masked k mask u rs) = width rs.
Proof. intros k mask u rs L. unfold set_part_masked. cbn [seq fold_left]. split; [|reflexivity]. repeat apply rows13_set. exact L. Qed.
Lemma replace_self : forall A (d : A) i l, replace_nth i (nth i l d) l = l.
Proof. intros A d. induction i; intros [|x l]; cbn; auto. f_equal. auto. Qed.

Lemma masked_row_column : forall k a (mask : nat -> bool) (v : nat -> xr) rs j, rows13 rs -> (k < 2)%nat -> (a < 4)%nat -> (j < width rs)%nat ->
  column (set_ray_row k a (fun j => if mask j then v j else view_item NaN rs k a j) rs) j =
  if mask j then replace_nth (4 * k + a) (v j) (column rs j) else column rs j.
Proof.
  intros k a mask v rs j L K A J. rewrite set_ray_row_column by auto. destruct (mask j); [reflexivity|].
  rewrite view_column by auto. apply replace_self.
Qed.
Lemma set_part_masked_column : forall k (mask : nat -> bool) u rs j, rows13 rs -> (k < 2)%nat -> (j < width rs)%nat ->
  column (set_part_masked k mask u rs) j =
  if mask j then
    let i := length (picked j mask) in
    replace_nth (4 * k + 3) (u i 3%nat) (replace_nth (4 * k + 2) (u i 2%nat)
      (replace_nth (4 * k + 1) (u i 1%nat) (replace_nth (4 * k + 0) (u i 0%nat) (column rs j))))
  else column rs j.
Proof.
  intros k mask u rs j L K J. unfold set_part_masked. cbn [seq fold_left].
  do 4 (rewrite masked_row_column; [|repeat apply rows13_set; exact L|exact K|lia|exact J]).
  destruct (mask j); reflexivity.
Qed.

Lemma mask_cols_column : forall A mask (rs : arr A) k,
  column (mask_cols mask rs) k = column rs (nth k (picked (width rs) mask) 0%nat).
Proof. intros. unfold column, mask_cols. cbn [rows]. rewrite map_map. reflexivity. Qed.
Lemma metadata_column : forall (rs : arr xr) j, column (metadata rs) j = skipn 8 (column rs j).
Proof. intros. unfold column, metadata, bottom_rows. cbn [rows]. rewrite skipn_map. reflexivity. Qed.
Lemma set_metadata_column : forall i r (rs : arr xr) j,
  column (set_metadata_row i r rs) j = firstn 8 (column rs j) ++ replace_nth i (r j) (skipn 8 (column rs j)).
Proof.
  intros. unfold column, set_metadata_row. cbn [rows]. rewrite map_app, firstn_map, skipn_map.
  rewrite replace_nth_map. reflexivity.
Qed.
Lemma meta_column : forall f (rs : arr xr) j, meta f rs j = nth (8 + meta_row f) (column rs j) NaN.
Proof. intros. unfold meta. rewrite row_column, metadata_column, nth_skipn. reflexivity. Qed.

(** *** Materials *)
Lemma part_floats : forall k rs j c, (k < 2)%nat -> (j < width rs)%nat -> column rs j = floats c ->
  column (part k rs) j = vec_list (if k =? 0 then origin (c_ray c) else direction (c_ray c))%nat.
Proof.
  intros k rs j c K J H. rewrite part_column by auto. rewrite H.
  destruct k as [|[|k]]; [| |lia]; reflexivity.
Qed.

Lemma set_part_floats : forall k u rs j c v, rows13 rs -> (k < 2)%nat -> (j < width rs)%nat ->
  column rs j = floats c -> column u j = vec_list v ->
  column (set_part k u rs) j = floats (with_ray (if k =? 0 then Ray v (direction (c_ray c)) else Ray (origin (c_ray c)) v)%nat c).
Proof.
  intros k u rs j c v L K J H U. rewrite set_part_column by auto. rewrite !row_column, U, H.
  destruct k as [|[|k]]; [| |lia]; reflexivity.
Qed.

Lemma material_column : forall s rs, rows13 rs -> s_mat s <> Untraceable ->
  exists out, batch_material s rs = Some out /\ rows13 out /\ width out = width rs /\
    forall j c c', (j < width rs)%nat -> column rs j = floats c -> material_trace s c = Some c' ->
      column out j = floats c'.
Proof.
  intros s rs L T. unfold batch_material, material_trace. destruct (s_mat s) as [| |index_at|] eqn:M; [| | |congruence].
  - eexists. split; [reflexivity|]. destruct (set_part_shape 1 (const_cols (width rs) [0; 0; 0; 0]) rs L) as [A B].
    split; [exact A|]. split; [exact B|]. intros j c c' J H E. injection E as <-.
    apply (set_part_floats 1 _ rs j c zero4); auto.
  - eexists. split; [reflexivity|].
    set (ns := batch_world_normals s (part 0 rs)).
    destruct (set_part_shape 1 (batch_reflect (part 1 rs) ns) rs L) as [A B].
    split; [exact A|]. split; [exact B|]. intros j c c' J H E.
    pose proof (world_normals_column s (part 0 rs) j _ (part_floats 0 rs j c ltac:(lia) J H)) as N.
    cbn [Nat.eqb] in N. fold ns in N. destruct (world_normal s (origin (c_ray c))) as [n|]; [|discriminate].
    injection E as <-. apply (set_part_floats 1 _ rs j c); auto.
    apply reflect_column; [|exact N]. apply (part_floats 1 rs j c); auto.
  - set (ns := batch_world_normals s (part 0 rs)).
    set (n2 := fun j => match meta Wavelength rs j with Fin w => index_at w | _ => NaN end).
    destruct (batch_refract (part 1 rs) ns (meta Index rs) n2 world_index) as [d n] eqn:BR.
    eexists. split; [reflexivity|]. destruct (set_part_shape 1 d rs L) as [A B].
    split; [|split; [exact B|]].
    { unfold rows13, set_metadata_row in *. cbn [rows]. rewrite app_length, replace_nth_length, firstn_length, skipn_length.
      lia. }
    intros j c c' J H E.
    pose proof (world_normals_column s (part 0 rs) j _ (part_floats 0 rs j c ltac:(lia) J H)) as N.
    cbn [Nat.eqb] in N. fold ns in N. destruct (world_normal s (origin (c_ray c))) as [v|]; [|discriminate].
    destruct (index_at (c_wl c)) as [i2| | |] eqn:I2; try discriminate.
    destruct (refract (direction (c_ray c)) v (c_idx c) i2 world_index) as [[d' m]|] eqn:RF; [|discriminate].
    injection E as <-.
    assert (X : n2 j = Fin i2).
    { unfold n2. rewrite meta_column, H. exact I2. }
    assert (Y : meta Index rs j = Fin (c_idx c)) by (rewrite meta_column, H; reflexivity).
    destruct (refract_column (part 1 rs) ns (meta Index rs) n2 world_index j _ _ _ _ _ _
                (part_floats 1 rs j c ltac:(lia) J H) N Y X RF) as [C1 C2].
    rewrite BR in C1, C2. cbn [fst snd] in C1, C2.
    rewrite set_metadata_column, (set_part_floats 1 d rs j c d' L ltac:(lia) J H C1), C2. reflexivity.
Qed.
