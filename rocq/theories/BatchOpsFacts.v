(** * BatchOpsFacts: each column of the array code is what the one-ray model computes *)
From Coq Require Import Reals List Bool ZArith Arith Lia Lra.
Import ListNotations.
From Verif Require Import XR XRFacts Arr Lin LinFacts Ops Prim Csg Surf World Tracer Batch BatchFacts BatchFacts2 BatchOps.
Open Scope R_scope.

(** a column with these four numbers, or the nan column *)
Definition col_of (o : option v4) : list xr :=
  match o with Some v => vec_list v | None => [NaN; NaN; NaN; NaN] end.

Lemma column_with_row : forall f a r j, column (with_row f a r) j = map (fun x => f x (r j)) (column a j).
Proof. intros. unfold column, with_row. cbn [rows]. rewrite !map_map. reflexivity. Qed.
Lemma column_where_row : forall A cond (a b : arr A) j,
  column (where_row cond a b) j =
  map (fun p : A * A => if cond j then fst p else snd p) (combine (column a j) (column b j)).
Proof.
  intros. unfold column, where_row. cbn [rows]. rewrite combine_map2, !map_map. reflexivity.
Qed.
Lemma column_matmul : forall m a j,
  column (matmul m a) j = map (fun v => dot_list (vec_list v) (column a j)) [row0 m; row1 m; row2 m; row3 m].
Proof. reflexivity. Qed.
Lemma column_const : forall n l j, column (const_cols n l) j = map Fin l.
Proof. intros. unfold column, const_cols. cbn [rows]. rewrite map_map. reflexivity. Qed.

Lemma dot_vec : forall u v, dot_list (vec_list u) (vec_list v) = Fin (vdot u v).
Proof. intros. unfold dot_list, vec_list, vdot. cbn. f_equal. ring. Qed.
Lemma dot_nan : forall u, dot_list (vec_list u) [NaN; NaN; NaN; NaN] = NaN.
Proof. reflexivity. Qed.

Lemma column_normalize : forall a j v, column a j = vec_list v ->
  column (normalize0 a) j = col_of (vnormalize v).
Proof.
  intros a j v H. unfold normalize0. rewrite column_with_row, H. unfold norm0, dot0. rewrite H, dot_vec.
  assert (P : 0 <= vdot v v) by (destruct v; unfold vdot; cbn; nra).
  unfold xsqrt. destruct (Rle_dec 0 (vdot v v)) as [_|N]; [|lra].
  unfold vnormalize. destruct (Req_EM_T (vdot v v) 0) as [Z|Z].
  - rewrite Z, sqrt_0. rewrite (proj1 (vdot_self_zero v) Z). unfold vec_list. cbn [map vx vy vz vw xdiv].
    destruct (Req_EM_T 0 0); [|lra]. unfold inf_sign. destruct (Rlt_dec 0 0); [lra|]. reflexivity.
  - assert (S : sqrt (vdot v v) <> 0).
    { intro E. apply Z. apply sqrt_eq_0; auto. }
    unfold vec_list, vnorm, vscale. cbn [map col_of vec_list vx vy vz vw]. rewrite !xdiv_fin by exact S.
    unfold vec_list. cbn [vx vy vz vw]. unfold Rdiv. repeat (f_equal; try apply Rmult_comm).
Qed.
Lemma column_normalize_nan : forall a j, column a j = [NaN; NaN; NaN; Fin 0] ->
  column (normalize0 a) j = col_of None.
Proof. intros a j H. unfold normalize0. rewrite column_with_row, H. unfold norm0, dot0. rewrite H. reflexivity. Qed.

Ltac col := repeat (rewrite ?column_set_row, ?column_where_row, ?column_const, ?column_amap, ?column_amap2, ?column_full).

Lemma row_nth : forall (a : arr xr) v j i, column a j = vec_list v -> row NaN a i j = nth i (vec_list v) NaN.
Proof. intros a v j i H. rewrite row_column, H. reflexivity. Qed.

Lemma prim_normal_column : forall p pts j v, column pts j = vec_list v ->
  column (batch_prim_normal p pts) j = col_of (prim_normal p v).
Proof.
  intros p pts j v H. destruct p as [rad|rad lo hi c|[[x0 y0] z0] [[x1 y1] z1]|f h|w l]; cbn [batch_prim_normal prim_normal].
  - apply column_normalize. col. rewrite H. reflexivity.
  - unfold batch_cylinder_normal, cylinder_normal. apply column_normalize. destruct c.
    + col. rewrite H, !(row_nth pts v j 2 H). cbn [nth vec_list xisclose].
      destruct (isclose (vz v) lo); destruct (isclose (vz v) hi); reflexivity.
    + col. rewrite H. reflexivity.
  - unfold batch_cube_normal, cube_normal. apply column_normalize. col.
    assert (E : forall ends, column (Arr (width pts) (map (fun p : (nat -> xr) * R => fun j => xisclose (fst p j) (snd p))
        (combine (rows pts) ends))) j = map (fun p : xr * R => xisclose (fst p) (snd p)) (combine (column pts j) ends)).
    { intro ends. unfold column. cbn [rows]. rewrite map_map.
      rewrite <- (map_id ends) at 2. rewrite combine_map2, map_map. reflexivity. }
    rewrite !E, H. unfold cube_normal_axis. cbn.
    destruct (isclose (vx v) (Rmin x0 x1)), (isclose (vx v) (Rmax x0 x1)),
      (isclose (vy v) (Rmin y0 y1)), (isclose (vy v) (Rmax y0 y1)),
      (isclose (vz v) (Rmin z0 z1)), (isclose (vz v) (Rmax z0 z1)); reflexivity.
  - unfold batch_paraboloid_normal, paraboloid_normal. apply column_normalize. col.
    rewrite H, (row_nth pts v j 2 H). cbn [nth vec_list xisclose].
    destruct (isclose (vz v) h); reflexivity.
  - unfold batch_plane_normal. col. rewrite <- (column_length _ pts j), H. reflexivity.
Qed.

Lemma matmul_vec : forall m a j v, column a j = vec_list v -> column (matmul m a) j = vec_list (mapply m v).
Proof. intros m a j v H. rewrite column_matmul, H. cbn [map]. rewrite !dot_vec. reflexivity. Qed.

Lemma world_normals_column : forall s pts j v, column pts j = vec_list v ->
  column (batch_world_normals s pts) j = col_of (world_normal s v).
Proof.
  intros s pts j v H. unfold batch_world_normals, world_normal.
  pose proof (prim_normal_column (s_prim s) _ j _ (matmul_vec (s_obj s) pts j v H)) as L.
  set (ln := batch_prim_normal (s_prim s) (matmul (s_obj s) pts)) in *.
  rewrite column_amap. destruct (prim_normal (s_prim s) (mapply (s_obj s) v)) as [n|]; cbn [col_of] in L.
  - set (a := set_row 3 (fun _ => Fin 0) (matmul (mtrans (s_obj s)) ln)).
    assert (A : column a j = vec_list (vset_w (mapply (mtrans (s_obj s)) n) 0)).
    { unfold a. rewrite column_set_row, (matmul_vec _ _ _ _ L). reflexivity. }
    rewrite (column_normalize a j _ A). destruct (vnormalize _) as [w|]; cbn [col_of vec_list map]; [|reflexivity].
    unfold vec_list. cbn [map xmul vscale vx vy vz vw]. repeat (f_equal; try apply Rmult_comm).
  - rewrite (column_normalize_nan (set_row 3 (fun _ => Fin 0) (matmul (mtrans (s_obj s)) ln)) j); [reflexivity|].
    rewrite column_set_row, column_matmul, L. reflexivity.
Qed.

Lemma reflect_column : forall vs ns j v n, column vs j = vec_list v -> column ns j = vec_list n ->
  column (batch_reflect vs ns) j = vec_list (reflect v n).
Proof.
  intros vs ns j v n V N. unfold batch_reflect. rewrite column_amap2, column_with_row, column_amap, V, N.
  unfold dot0. rewrite V, N, dot_vec. unfold vec_list. cbn. unfold reflect, vsub, vadd, vopp, vscale. cbn [vx vy vz vw].
  repeat (f_equal; try ring).
Qed.

Lemma refract_column : forall vs ns n1 n2 ng j v n i1 i2 d m,
  column vs j = vec_list v -> column ns j = vec_list n -> n1 j = Fin i1 -> n2 j = Fin i2 ->
  refract v n i1 i2 ng = Some (d, m) ->
  column (fst (batch_refract vs ns n1 n2 ng)) j = vec_list d /\ snd (batch_refract vs ns n1 n2 ng) j = Fin m.
Proof.
  intros vs ns n1 n2 ng j v n i1 i2 d m V N N1 N2 E. unfold refract in E.
  destruct (vnormalize v) as [u|] eqn:U; [|discriminate].
  unfold batch_refract. cbv zeta. cbn [fst snd].
  pose proof (column_normalize vs j v V) as VU. rewrite U in VU. cbn [col_of] in VU.
  set (w := normalize0 vs) in *. set (neg := amap xopp ns).
  assert (NG : column neg j = vec_list (vopp n)).
  { unfold neg. rewrite column_amap, N. unfold vec_list, vopp, vscale. cbn. repeat (f_equal; try ring). }
  assert (CP : dot0 w ns j = Fin (vdot u n)) by (unfold dot0; rewrite VU, N, dot_vec; reflexivity).
  assert (CN : dot0 w neg j = Fin (vdot u (vopp n))) by (unfold dot0; rewrite VU, NG, dot_vec; reflexivity).
  cbv zeta in E. rewrite !CP, !CN, N1, N2. cbn [xltb].
  set (ex := rltb 0 (vdot u n)) in *.
  set (nn := if ex then vopp n else n) in *.
  set (c1 := if ex then vdot u n else vdot u (vopp n)) in *.
  set (l := if ex then ng else i2) in *.
  destruct (Req_EM_T l 0) as [Z|Z]; [discriminate|].
  replace (if ex then Fin ng else Fin i2) with (Fin l) by (unfold l; destruct ex; reflexivity).
  replace (if ex then Fin (vdot u n) else Fin (vdot u (vopp n))) with (Fin c1) by (unfold c1; destruct ex; reflexivity).
  rewrite xdiv_fin by exact Z. set (r := i1 / l) in *. cbn [xmul xsub xopp xadd].
  set (q := 1 - r * r * (1 - c1 * c1)) in *.
  replace (1 + - (r * r * (1 + - (c1 * c1)))) with q by (unfold q; ring).
  assert (SQ : xsqrt (xmax (Fin 0) (Fin q)) = Fin (sqrt (Rmax 0 q))).
  { cbn [xmax xleb]. unfold rleb, Rmax. destruct (Rle_dec 0 q); cbn [xsqrt].
    - destruct (Rle_dec 0 q); [reflexivity|lra].
    - destruct (Rle_dec 0 0); [reflexivity|lra]. }
  set (tr := rltb 0 q) in *.
  set (x := if tr then _ else _) in E. destruct (vnormalize x) as [d'|] eqn:X; [|discriminate].
  injection E as -> <-. split; [|unfold tr; cbn [xltb]; reflexivity || (destruct (rltb 0 q); reflexivity)].
  set (big := where_row _ _ _).
  assert (B : column big j = vec_list x).
  { unfold big. rewrite column_where_row, !column_amap2, !column_with_row, VU, column_where_row, NG, N.
    rewrite ?CP, ?CN, ?N1, ?N2. fold ex. cbn [xltb]. fold ex.
    replace (if ex then Fin ng else Fin i2) with (Fin l) by (unfold l; destruct ex; reflexivity).
    replace (if ex then Fin (vdot u n) else Fin (vdot u (vopp n))) with (Fin c1) by (unfold c1; destruct ex; reflexivity).
    rewrite xdiv_fin by exact Z. fold r. cbn [xmul xsub xopp xadd].
    replace (1 + - (r * r * (1 + - (c1 * c1)))) with q by (unfold q; ring).
    rewrite SQ. cbn [xltb]. fold tr.
    assert (NN : map (fun p : xr * xr => if ex then fst p else snd p) (combine (vec_list (vopp n)) (vec_list n)) = vec_list nn)
      by (unfold nn; destruct ex; reflexivity).
    rewrite NN. unfold x. destruct tr; unfold vec_list, vadd, vscale; cbn; repeat (f_equal; try ring). }
  rewrite (column_normalize big j x B), X. reflexivity.
Qed.
