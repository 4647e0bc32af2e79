(** * BatchTraceFacts2: the states of the array tracer simulate those of the list tracer *)
From Coq Require Import Reals List Bool ZArith Arith Lia Lra.
Import ListNotations.
From Verif Require Import XR XRFacts Arr Lin LinFacts Ops Prim Csg CsgProps Surf World Tracer TraceFacts Batch BatchFacts BatchFacts2
  BatchOps BatchOpsFacts RaySet SpecRaySet RaySetFacts RaySetProps BatchTracer BatchTraceFacts SpecArray.
Open Scope R_scope.

Section Interact.
  Variable hd : nat -> xr.
  Variable hs : nat -> Z.

  (** the array in the middle of _st_interact *)
  Definition shows (next : arr xr) (cells : list cell) : Prop :=
    rows13 next /\ width next = length cells /\
    forall j x, nth_error cells j = Some x ->
      hit_of x = (hd j, hs j) /\ forall c, snd x = Some c -> column next j = floats c.

  Lemma existsb_cells : forall next cells id, shows next cells ->
    existsb (fun j => Z.eqb (hs j) id) (seq 0 (width next)) =
    existsb (fun x : cell => Z.eqb (snd (hit_of x)) id) cells.
  Proof.
    intros next cells id (_ & W & H). rewrite W. apply eq_true_iff_eq. rewrite !existsb_exists. split.
    - intros (j & J & E). apply in_seq in J. destruct (nth_error cells j) as [x|] eqn:N.
      2:{ apply nth_error_None in N. lia. }
      exists x. split; [eapply nth_error_In; eauto|]. destruct (H j x N) as [-> _]. exact E.
    - intros (x & I & E). apply In_nth_error in I. destruct I as [j N]. exists j.
      split; [apply in_seq; cbn; split; [lia|]; apply nth_error_Some; congruence|].
      destruct (H j x N) as [X _]. rewrite X in E. exact E.
  Qed.

  Lemma entry_shows : forall e next cells, shows next cells ->
    match lut_entry e cells with
    | Some cells' => exists next', batch_entry hd hs next e = Some next' /\ shows next' cells'
    | None => batch_entry hd hs next e = None
    end.
  Proof.
    intros [id s] next cells S. unfold lut_entry, batch_entry. rewrite (existsb_cells next cells id S).
    set (mask := fun j => Z.eqb (hs j) id). destruct (existsb _ cells); [|eauto].
    destruct S as (L & W & H).
    set (u := fun i axis => xadd (part_masked 0 mask next i axis)
               (xmul (part_masked 1 mask next i axis) (select (width next) mask hd i))).
    cbv zeta. change (fun i axis : nat => xadd (part_masked 0 mask next i axis) (xmul (part_masked 1 mask next i axis) (select (width next) mask hd i))) with u.
    destruct (set_part_masked_shape 0 mask u next L) as [L1 W1].
    set (next1 := set_part_masked 0 mask u next) in *.
    assert (Lm : rows13 (mask_cols mask next1)).
    { unfold rows13, mask_cols. cbn [rows]. rewrite map_length. exact L1. }
    destruct (s_mat s) eqn:M; try (unfold batch_material; rewrite M; reflexivity).
    all: destruct (material_column s (mask_cols mask next1) Lm ltac:(congruence)) as (out & -> & Lo & Wo & Co);
      eexists; (split; [reflexivity|]).
    all: assert (Lp : rows13 (put mask out next1)) by
           (unfold rows13, put in *; cbn [rows]; rewrite map_length, combine_length; lia).
    all: split; [exact Lp|]; rewrite map_length; (split; [unfold put; cbn [width]; rewrite W1; exact W|]).
    all: intros j x E; rewrite nth_error_map in E; destruct (nth_error cells j) as [y|] eqn:N; [|discriminate];
      cbn [option_map] in E; injection E as <-; destruct (H j y N) as [Hy Cy];
      assert (J : (j < width next)%nat) by (rewrite W; apply nth_error_Some; congruence).
    all: destruct y as [h oc]; cbn [hit_of fst snd] in *; subst h; cbn [snd].
    all: change (Z.eqb (hs j) id) with (mask j); rewrite column_put by (unfold rows13 in *; lia).
    all: destruct (mask j) eqn:MJ; cbn [hit_of fst snd].
    all: try (split; [reflexivity|]; intros c E; unfold next1; rewrite set_part_masked_column by (auto; lia);
              rewrite MJ; solve [auto]).
    all: unfold apply_surface; destruct oc as [c0|]; cbn [fst snd]; [|split; [reflexivity|discriminate]].
    all: split; [reflexivity|]; intros c E; destruct (hd j) as [t| | |] eqn:D; try discriminate.
    all: destruct (picked_nth (width next1) mask j ltac:(lia) MJ) as [K NK].
    all: apply (Co _ (forward t c0) c); [unfold mask_cols; cbn [width]; exact K| |exact E].
    all: rewrite mask_cols_column, NK; unfold next1; rewrite set_part_masked_column by (auto; lia); rewrite MJ; cbv zeta.
    all: rewrite W1 in NK.
    all: unfold u, part_masked, select; rewrite NK, !view_column by lia; rewrite (Cy c0 eq_refl), D; cbn.
    all: unfold floats, numbers, forward, with_ray, vadd, vscale; cbn.
    all: repeat (f_equal; try ring).
  Qed.

  Lemma entries_shows : forall lut next cells, shows next cells ->
    match lut_pass lut cells with
    | Some cells' => exists next', batch_entries hd hs lut next = Some next' /\ shows next' cells'
    | None => batch_entries hd hs lut next = None
    end.
  Proof.
    induction lut as [|e lut IH]; intros next cells S; cbn [lut_pass batch_entries]; [eauto|].
    pose proof (entry_shows e next cells S) as E. destruct (lut_entry e cells) as [cells'|].
    - destruct E as (next' & -> & S'). apply IH. exact S'.
    - rewrite E. reflexivity.
  Qed.

  Lemma start_shows : forall rs rays hits, holds rs rays -> length hits = length rays ->
    (forall j q, nth_error hits j = Some q -> q = (hd j, hs j)) ->
    shows (set_part_masked 1 (fun j => Z.eqb (hs j) (-1)) (fun _ _ => Fin 0) (amap Fin rs))
          (map (fun q : (xr * Z) * col => start_cell (fst q) (snd q)) (combine hits rays)).
  Proof.
    intros rs rays hits H Lh Hh. pose proof (holds_column rs rays H) as C. destruct H as (L & W & _).
    assert (L13 : rows13 (amap Fin rs)) by (unfold rows13, amap; cbn [rows]; rewrite map_length; exact L).
    destruct (set_part_masked_shape 1 (fun j => Z.eqb (hs j) (-1)) (fun _ _ => Fin 0) (amap Fin rs) L13) as [A B].
    split; [exact A|]. rewrite map_length, combine_length, Lh, Nat.min_id. split; [rewrite B; exact W|].
    intros j x E. rewrite nth_error_map in E. destruct (nth_error (combine hits rays) j) as [[q c]|] eqn:N; [|discriminate].
    cbn [option_map fst snd] in E. injection E as <-.
    assert (J : (j < length rays)%nat).
    { apply Nat.lt_le_trans with (length (combine hits rays)); [apply nth_error_Some; congruence|rewrite combine_length; lia]. }
    assert (Q : nth_error hits j = Some q /\ nth_error rays j = Some c).
    { apply nth_error_nth with (d := (q, c)) in N. rewrite combine_nth in N by exact Lh. injection N as N1 N2.
      split; [rewrite <- N1|rewrite <- N2]; apply nth_error_nth'; lia. }
    destruct Q as [Q1 Q2]. rewrite (Hh j q Q1). unfold start_cell. cbn [hit_of fst snd].
    split; [reflexivity|]. intros c' E. injection E as <-.
    rewrite set_part_masked_column by (auto; try lia; unfold amap; cbn [width]; lia).
    rewrite column_amap, (C j c Q2). destruct (Z.eqb (hs j) (-1)); reflexivity.
  Qed.

  Lemma dead_column : forall rs rays, holds rs rays -> forall j c, nth_error rays j = Some c ->
    batch_dead hs rs j = dead c (hd j, hs j).
  Proof.
    intros rs rays H j c E. pose proof (holds_column rs rays H j c E) as C. destruct H as (L & W & G).
    assert (J : (j < width rs)%nat) by (rewrite W; apply nth_error_Some; congruence).
    unfold batch_dead, dead. f_equal.
    - unfold absorbed, norm0, dot0. rewrite (part_floats 1 (amap Fin rs) j c); auto.
      2:{ rewrite column_amap, C. reflexivity. }
      cbn [Nat.eqb]. rewrite dot_vec. unfold xsqrt.
      destruct (Rle_dec 0 (vdot (direction (c_ray c)) (direction (c_ray c)))) as [_|X]; [reflexivity|].
      destruct X. apply vdot_self_nonneg.
    - unfold powerless. rewrite (G j c Intensity E Logic.I). reflexivity.
  Qed.

  (** *** The frame *)
  Lemma tilt_column : forall a j d u, column a j = [Fin (vx d); Fin (vy d); Fin (vz d)] ->
    vnormalize (trim d) = Some u ->
    column (normalize0 a) j = [Fin (vx u); Fin (vy u); Fin (vz u)].
  Proof.
    intros a j d u H E. unfold normalize0. rewrite column_with_row, H. unfold norm0, dot0. rewrite H.
    assert (D : dot_list [Fin (vx d); Fin (vy d); Fin (vz d)] [Fin (vx d); Fin (vy d); Fin (vz d)]
                = Fin (vdot (trim d) (trim d))).
    { unfold dot_list, trim, vset_w, vdot. cbn. f_equal. ring. }
    rewrite D. unfold xsqrt. pose proof (vdot_self_nonneg (trim d)) as P.
    destruct (Rle_dec 0 (vdot (trim d) (trim d))) as [_|X]; [|lra].
    unfold vnormalize in E. destruct (Req_EM_T (vdot (trim d) (trim d)) 0) as [Z|Z]; [discriminate|].
    injection E as <-.
    assert (S : sqrt (vdot (trim d) (trim d)) <> 0) by (intro Y; apply Z; apply sqrt_eq_0; auto).
    cbn [map]. rewrite !xdiv_fin by exact S. unfold vnorm, vscale, trim, vset_w at 3 6 9. cbn [vx vy vz].
    unfold Rdiv. repeat (f_equal; try apply Rmult_comm).
  Qed.

  Lemma top3_column : forall (a : arr xr) j v, column a j = vec_list v ->
    column (top_rows 3 a) j = [Fin (vx v); Fin (vy v); Fin (vz v)].
  Proof. intros a j v H. unfold top_rows, column in *. cbn [rows]. rewrite <- firstn_map, H. reflexivity. Qed.

  Lemma insert_row : forall rs next surfaces k c c' w, (k < width rs)%nat -> (k < width next)%nat ->
    column rs k = floats c -> column next k = floats c' -> make_row c c' (surfaces k) = Some w ->
    column (vstack (metadata rs) (vstack (Arr (width rs) [fun j => Fin (IZR (surfaces j))])
      (vstack (top_rows 3 (part 0 rs)) (vstack (top_rows 3 (part 0 next)) (normalize0 (top_rows 3 (part 1 rs))))))) k
    = row_numbers w.
  Proof.
    intros rs next surfaces k c c' w K K' C C' M. unfold make_row in M.
    destruct (vnormalize (trim (direction (c_ray c)))) as [u|] eqn:U; [|discriminate]. injection M as <-.
    rewrite !column_vstack, metadata_column, C.
    rewrite (top3_column _ k _ (part_floats 0 rs k c ltac:(lia) K C)).
    rewrite (top3_column _ k _ (part_floats 0 next k c' ltac:(lia) K' C')).
    rewrite (tilt_column _ k _ u (top3_column _ k _ (part_floats 1 rs k c ltac:(lia) K C)) U).
    reflexivity.
  Qed.
End Interact.

Lemma filter_nil_forallb : forall A (p : A -> bool) l, filter p l = [] <-> forallb (fun x => negb (p x)) l = true.
Proof.
  intros A p l. induction l as [|x l IH]; cbn; [tauto|]. destruct (p x); cbn; [split; discriminate|exact IH].
Qed.
Lemma nth_error_combine : forall A B (l : list A) (m : list B) k a b,
  nth_error (combine l m) k = Some (a, b) -> nth_error l k = Some a /\ nth_error m k = Some b.
Proof.
  intros A B l. induction l as [|x l IH]; intros [|y m] [|k] a b E; try discriminate.
  - injection E as <- <-. auto.
  - exact (IH m k a b E).
Qed.
Lemma combine_nth_error : forall A B (l : list A) (m : list B) k a b,
  nth_error l k = Some a -> nth_error m k = Some b -> nth_error (combine l m) k = Some (a, b).
Proof.
  intros A B l. induction l as [|x l IH]; intros [|y m] [|k] a b E F; try discriminate.
  - injection E as <-. injection F as <-. reflexivity.
  - exact (IH m k a b E F).
Qed.
Lemma lut_pass_length : forall lut cells cells', lut_pass lut cells = Some cells' -> length cells' = length cells.
Proof.
  induction lut as [|[id s] lut IH]; intros cells cells' E; cbn [lut_pass] in E; [congruence|].
  destruct (lut_entry (id, s) cells) as [c1|] eqn:E1; [|discriminate]. rewrite (IH _ _ E).
  unfold lut_entry in E1. destruct (existsb _ cells).
  - destruct (s_mat s); try discriminate; injection E1 as <-; apply map_length.
  - congruence.
Qed.

Lemma map_eq_nth : forall A B (f : A -> B) l m, length l = length m ->
  (forall k x, nth_error l k = Some x -> nth_error m k = Some (f x)) -> map f l = m.
Proof.
  intros A B f l. induction l as [|x l IH]; intros [|y m] L H; try discriminate; [reflexivity|].
  cbn. f_equal.
  - specialize (H 0%nat x eq_refl). injection H as ->. reflexivity.
  - apply IH; [injection L; auto|]. intros k z E. exact (H (S k) z E).
Qed.

Lemma floats_finite : forall c, forallb xfinite (floats c) = true.
Proof. reflexivity. Qed.
Lemma floats_real : forall c, map (fun x => match x with Fin r => r | _ => 0 end) (floats c) = numbers c.
Proof. reflexivity. Qed.

Lemma interact_shows : forall hd hs lut limit gen rs rays hits, holds rs rays -> length hits = length rays ->
  (forall j q, nth_error hits j = Some q -> q = (hd j, hs j)) ->
  match interact lut limit gen rays hits with
  | IAllDead => batch_interact hd hs lut limit gen rs = BAllDead
  | IRaise => batch_interact hd hs lut limit gen rs = BRaise
  | INext ws rays' gen' fin =>
      exists rs', batch_interact hd hs lut limit gen rs = BNext (map row_numbers ws) rs' gen' fin /\ holds rs' rays'
  | INan => True
  end.
Proof.
  intros hd hs lut limit gen rs rays hits H Lh Hh. unfold interact, batch_interact. cbv zeta.
  pose proof (start_shows hd hs rs rays hits H Lh Hh) as S.
  set (next0 := set_part_masked 1 _ _ (amap Fin rs)) in *.
  set (cells0 := map _ (combine hits rays)) in *.
  assert (L0 : length cells0 = length rays) by (unfold cells0; rewrite map_length, combine_length; lia).
  pose proof (entries_shows hd hs lut next0 cells0 S) as ES.
  destruct (lut_pass lut cells0) as [cells|] eqn:LP; [|rewrite ES; reflexivity].
  destruct ES as (next & -> & (L13 & WN & SH)).
  assert (LC : length cells = length rays) by (rewrite (lut_pass_length _ _ _ LP); exact L0).
  set (dd := batch_dead hs rs). set (lv := fun j => negb (dd j)).
  set (p := fun q : col * cell => negb (dead (fst q) (hit_of (snd q)))).
  assert (Wr : width rs = length rays) by (destruct H as (_ & W & _); exact W).
  assert (MP : forall j q, nth_error (combine rays cells) j = Some q -> lv j = p q).
  { intros j [c x] E. apply nth_error_combine in E. destruct E as [E1 E2]. unfold lv, p, dd. cbn [fst snd].
    destruct (SH j x E2) as [X _]. rewrite X, (dead_column hd hs rs rays H j c E1). reflexivity. }
  destruct (picked_filter _ p (combine rays cells) lv MP) as [LP1 NP].
  assert (LCo : length (combine rays cells) = width rs) by (rewrite combine_length, LC, Wr; apply Nat.min_id).
  rewrite LCo in LP1, NP.
  assert (FD : forallb dd (seq 0 (width rs)) = true <-> filter p (combine rays cells) = []).
  { rewrite <- length_zero_iff_nil, <- LP1. unfold picked. rewrite length_zero_iff_nil, filter_nil_forallb.
    unfold lv. split; intro F; rewrite forallb_forall in *; intros x I; specialize (F x I); cbv beta in *;
      [rewrite F|rewrite negb_involutive in F]; auto. }
  set (living := filter p (combine rays cells)) in *.
  destruct living as [|q0 living'] eqn:LV.
  { rewrite (proj2 FD eq_refl). reflexivity. }
  destruct (forallb dd (seq 0 (width rs))) eqn:FB; [destruct FD as [FD _]; discriminate (FD eq_refl)|].
  rewrite <- LV in *. clear LV FD FB q0 living'.
  destruct (collect (map (fun q : col * cell => snd (snd q)) living)) as [nx|] eqn:CN; [|exact Logic.I].
  apply collect_some in CN.
  assert (Lnx : length nx = length living).
  { rewrite <- (map_length (fun q : col * cell => snd (snd q)) living), CN, map_length. reflexivity. }
  assert (NX : forall k q, nth_error living k = Some q -> exists c', nth_error nx k = Some c' /\ snd (snd q) = Some c').
  { intros k q E. assert (X : nth_error (map (fun q : col * cell => snd (snd q)) living) k = Some (snd (snd q))).
    { rewrite nth_error_map, E. reflexivity. }
    rewrite CN, nth_error_map in X. destruct (nth_error nx k) as [c'|]; [|discriminate]. injection X as X. eauto. }
  destruct (collect (map _ (combine living nx))) as [ws|] eqn:CW; [|exact Logic.I].
  apply collect_some in CW.
  assert (Lws : length ws = length living).
  { rewrite <- (map_length Some ws), <- CW, map_length, combine_length. lia. }
  set (next1 := mask_cols lv next). set (old := mask_cols lv (amap Fin rs)).
  assert (W1 : width next1 = length living).
  { unfold next1, mask_cols. cbn [width]. rewrite WN, LC, <- Wr. exact LP1. }
  assert (W2 : width old = length living).
  { unfold old, mask_cols, amap. cbn [width]. exact LP1. }
  assert (COL : forall k c x, nth_error living k = Some (c, x) ->
     column old k = floats c /\ (forall c', snd x = Some c' -> column next1 k = floats c') /\
     select (width rs) lv hs k = snd (hit_of x)).
  { intros k c x E. pose proof (NP k _ E) as E'. apply nth_error_combine in E'. destruct E' as [E1 E2].
    destruct (SH _ _ E2) as [X1 X2]. split; [|split].
    - unfold old. rewrite mask_cols_column, column_amap. unfold amap. cbn [width]. rewrite (holds_column rs rays H _ c E1). reflexivity.
    - intros c' Ec. unfold next1. rewrite mask_cols_column, WN, LC, <- Wr. apply X2. exact Ec.
    - unfold select. rewrite X1. reflexivity. }
  assert (ROWS : batch_insert old next1 (select (width rs) lv hs) = map row_numbers ws).
  { symmetry. apply map_eq_nth.
    - unfold batch_insert. rewrite map_length, seq_length. unfold vstack, metadata, bottom_rows. cbn [width]. lia.
    - intros k w E. assert (K : (k < length living)%nat) by (rewrite <- Lws; apply nth_error_Some; congruence).
      destruct (nth_error living k) as [[c x]|] eqn:EL; [|apply nth_error_None in EL; lia].
      destruct (NX k _ EL) as (c' & EC & SC). cbn [snd] in SC. destruct (COL k c x EL) as (C1 & C2 & C3).
      assert (M : make_row c c' (snd (hit_of x)) = Some w).
      { assert (X : nth_error (map Some ws) k = Some (Some w)) by (rewrite nth_error_map, E; reflexivity).
        rewrite <- CW, nth_error_map, (combine_nth_error _ _ _ _ _ _ _ EL EC) in X. cbn in X. congruence. }
      rewrite <- C3 in M. unfold batch_insert. rewrite nth_error_map.
      rewrite (nth_error_nth' _ 0%nat) by (rewrite seq_length; unfold vstack, metadata, bottom_rows; cbn [width]; lia).
      rewrite seq_nth by (unfold vstack, metadata, bottom_rows; cbn [width]; lia). cbn [option_map Nat.add]. f_equal.
      apply (insert_row old next1 (select (width rs) lv hs) k c c' w); auto; lia. }
  rewrite ROWS.
  set (next2 := set_metadata_row (meta_row Generation) (fun _ => Fin (INR (Datatypes.S gen))) next1).
  assert (L2 : rows13 next2).
  { unfold rows13, next2, set_metadata_row, next1, mask_cols in *. cbn [rows].
    rewrite app_length, replace_nth_length, firstn_length, skipn_length, map_length. lia. }
  assert (W3 : width next2 = length nx) by (unfold next2, set_metadata_row; cbn [width]; lia).
  assert (C2 : forall k c', nth_error nx k = Some c' -> column next2 k = floats (with_gen (Datatypes.S gen) c')).
  { intros k c' E. assert (K : (k < length living)%nat) by (rewrite <- Lnx; apply nth_error_Some; congruence).
    destruct (nth_error living k) as [[c x]|] eqn:EL; [|apply nth_error_None in EL; lia].
    destruct (NX k _ EL) as (c2 & EC & SC). cbn [snd] in SC. assert (c2 = c') by congruence. subst c2.
    destruct (COL k c x EL) as (_ & C & _). unfold next2. rewrite set_metadata_column, (C c' SC). reflexivity. }
  clearbody next2.
  assert (FIN : finite_values next2 && forallb (forallb xfinite) (map row_numbers ws) = true).
  { apply andb_true_intro. split.
    - unfold finite_values. apply forallb_forall. intros k I. apply in_seq in I.
      destruct (nth_error nx k) as [c'|] eqn:E; [|apply nth_error_None in E; lia]. rewrite (C2 k c' E). reflexivity.
    - apply forallb_forall. intros l I. apply in_map_iff in I. destruct I as (w & <- & _). reflexivity. }
  rewrite FIN. cbn [negb].
  destruct (Z.eqb (Z.of_nat (Datatypes.S gen)) limit).
  - eexists. split; [reflexivity|]. apply column_holds.
    + unfold is_rayset, to_real, amap. cbn [rows]. rewrite map_length. exact L2.
    + rewrite map_length. exact W3.
    + intros k c E. rewrite nth_error_map in E. destruct (nth_error nx k) as [c'|] eqn:Ek; [|discriminate].
      injection E as <-. unfold to_real. rewrite column_amap, (C2 k c' Ek). reflexivity.
  - eexists. split; [reflexivity|].
    set (moved := amap2 xadd _ _). destruct (set_part_shape 0 moved next2 L2) as [A B]. apply column_holds.
    + unfold is_rayset, to_real, amap. cbn [rows]. rewrite map_length. exact A.
    + rewrite !map_length. unfold to_real, amap. cbn [width]. rewrite B. exact W3.
    + intros k c E. rewrite !nth_error_map in E. destruct (nth_error nx k) as [c'|] eqn:Ek; [|discriminate].
      injection E as <-. unfold to_real. rewrite column_amap.
      assert (K : (k < width next2)%nat) by (rewrite W3; apply nth_error_Some; congruence).
      rewrite (set_part_floats 0 moved next2 k (with_gen (Datatypes.S gen) c')
                 (vadd (origin (c_ray c')) (vscale ray_offset_value (direction (c_ray c'))))); auto.
      unfold moved. rewrite column_amap2, column_amap.
      rewrite (part_floats 0 next2 k _ ltac:(lia) K (C2 k c' Ek)), (part_floats 1 next2 k _ ltac:(lia) K (C2 k c' Ek)).
      reflexivity.
Qed.
