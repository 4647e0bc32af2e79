(** * RaySetProps: the array and the list of rays it holds *)
From Coq Require Import Reals List Bool ZArith Arith Lia Lra.
Import ListNotations.
From Verif Require Import XR Arr ArrFacts Lin Ops Prim Csg Surf World Tracer Sources Batch BatchFacts RaySet SpecRaySet XRFacts RaySetFacts.
Open Scope R_scope.

(** [put x] writes field [f] of a ray and nothing else *)
Definition writes (f : field) (put : R -> col -> col) : Prop :=
  forall x c, field_of (put x c) f = x /\
              forall g, field_ok g -> g <> f -> field_of (put x c) g = field_of c g.

Lemma holds_new : forall n, exists rs, new_set n = Some rs /\ holds rs (new_rayset n).
Proof.
  intro n. destruct (new_set_fields n) as (rs & S & L & W & G). exists rs. split; [exact S|].
  unfold holds, new_rayset. split; [exact L|]. rewrite map_length, seq_length. split; [exact W|].
  intros j c f E F.
  assert (J : (j < n)%nat).
  { rewrite <- (seq_length n 0), <- (map_length (fun i => Col (Ray (point 0 0 0) zero4) 0 100 (633 / 1000) 1 i)).
    apply nth_error_Some. congruence. }
  rewrite nth_error_map in E. rewrite (nth_error_nth' _ 0%nat) in E by (rewrite seq_length; exact J).
  rewrite seq_nth in E by exact J. cbn [option_map Nat.add] in E. injection E as <-.
  destruct (G j J) as (A & B1 & B2 & B3 & B4 & B5).
  destruct f as [k a| | | | |]; cbn [field_of c_gen c_int c_wl c_idx c_id c_ray origin direction]; auto.
  destruct F as [K A']. rewrite A by auto.
  destruct k as [|[|k]]; [| |lia]; destruct a as [|[|[|[|a]]]]; try lia; reflexivity.
Qed.

Lemma holds_set : forall f put rs cs, field_ok f -> writes f put -> holds rs cs ->
  (forall x, exists rs', set f (Scalar x) rs = Some rs' /\ holds rs' (fill put x cs)) /\
  (forall xs, length xs = length cs ->
     exists rs', set f (Values (length xs) (fun j => nth j xs 0)) rs = Some rs' /\ holds rs' (assign put xs cs)).
Proof.
  intros f put rs cs F P (L & W & H).
  assert (G : forall v r cs', broadcast (width rs) v = Some r -> length cs' = length cs ->
     (forall j c', nth_error cs' j = Some c' -> exists c, nth_error cs j = Some c /\ c' = put (r j) c) ->
     exists rs', set f v rs = Some rs' /\ holds rs' cs').
  { intros v r cs' B Lc C. destruct (set_some f v rs) as [rs' S]; [congruence|].
    exists rs'. split; [exact S|]. destruct (set_frow f v rs rs' L F S) as (r' & B' & W' & L' & _).
    split; [exact L'|]. split; [congruence|]. intros j c' g E Hg.
    destruct (C j c' E) as (c & Ec & ->). destruct (P (r j) c) as [P1 P2].
    assert (J : (j < width rs)%nat) by (rewrite W; apply nth_error_Some; congruence).
    destruct (set_get f v rs rs' g j L F Hg S J) as [X Y].
    assert (D : g = f \/ g <> f).
    { destruct (Nat.eq_dec (frow g) (frow f)) as [e|e]; [left; apply frow_inj; auto|right; congruence]. }
    destruct D as [D|D].
    - destruct (X D) as (r'' & B'' & ->). subst g. rewrite P1. congruence.
    - rewrite (Y D), P2 by auto. apply H; auto. }
  split.
  - intro x. apply (G (Scalar x) (fun _ => x)); [reflexivity|apply map_length|].
    intros j c' E. unfold fill in E. rewrite nth_error_map in E. destruct (nth_error cs j) as [c|]; [|discriminate].
    injection E as <-. eauto.
  - intros xs Lx. apply (G (Values (length xs) (fun j => nth j xs 0)) (fun j => nth j xs 0)).
    + cbn. rewrite Lx, W, Nat.eqb_refl. reflexivity.
    + unfold assign. rewrite map_length, combine_length. lia.
    + intros j c' E. unfold assign in E.
      assert (J : (j < length cs)%nat).
      { apply Nat.lt_le_trans with (length (combine xs cs)); [|rewrite combine_length; lia].
        rewrite <- (map_length (fun q : R * col => put (fst q) (snd q))). apply nth_error_Some. congruence. }
      destruct (nth_error cs j) as [c|] eqn:Ec; [|apply nth_error_None in Ec; lia].
      exists c. split; [reflexivity|]. rewrite nth_error_map in E.
      rewrite (nth_error_nth' _ (0, c)) in E by (rewrite combine_length; lia).
      rewrite combine_nth in E by exact Lx. cbn [option_map fst snd] in E. injection E as <-.
      f_equal. apply nth_error_nth with (d := c) in Ec. symmetry. congruence.
Qed.

Ltac w := intros x c; split; [reflexivity|];
  intros [[|[|k]] [|[|[|[|a]]]]| | | | |] G N; cbn in G; try lia; try reflexivity; exfalso; apply N; reflexivity.

Lemma setters_write :
  writes (Coord 0 1) set_pos_y /\ writes (Coord 0 2) set_pos_z /\
  writes (Coord 1 0) set_dir_x /\ writes (Coord 1 1) set_dir_y /\ writes (Coord 1 2) set_dir_z /\
  writes Wavelength set_wavelength /\ writes Intensity set_intensity /\ writes Index with_idx.
Proof. repeat match goal with |- _ /\ _ => split end; w. Qed.

Lemma holds_hstack : forall a b ca cb, holds a ca -> holds b cb -> holds (hstack a b) (ca ++ cb).
Proof.
  intros a b ca cb (La & Wa & Ha) (Lb & Wb & Hb).
  destruct (hstack_rayset a b La Lb) as (L & W & G).
  split; [exact L|]. rewrite app_length. split; [lia|]. intros j c f E F.
  assert (J : (j < length ca + length cb)%nat).
  { rewrite <- app_length. apply nth_error_Some. congruence. }
  rewrite G by (auto; lia). destruct (Nat.ltb_spec j (width a)) as [K|K].
  - rewrite nth_error_app1 in E by lia. apply Ha; auto.
  - rewrite nth_error_app2 in E by lia. rewrite Wa. apply Hb; auto.
Qed.

Lemma nth_error_renumber : forall cs i j c, nth_error (renumber i cs) j = Some c ->
  exists c0, nth_error cs j = Some c0 /\ c = with_id (i + j) c0.
Proof.
  induction cs as [|x cs IH]; intros i [|j] c E; try discriminate.
  - cbn in E. injection E as <-. exists x. rewrite Nat.add_0_r. auto.
  - cbn in E. destruct (IH (S i) j c E) as (c0 & E0 & ->). exists c0. rewrite Nat.add_succ_r. auto.
Qed.
Lemma renumber_len : forall cs i, length (renumber i cs) = length cs.
Proof. induction cs; intros; cbn; auto. Qed.

Lemma holds_fold : forall sets css a ca, Forall2 holds sets css -> holds a ca ->
  holds (fold_left hstack sets a) (ca ++ concat css).
Proof.
  intros sets css a ca H. revert a ca. induction H as [|s c sets css Hs H IH]; intros a ca A.
  - cbn. rewrite app_nil_r. exact A.
  - cbn [fold_left concat]. rewrite app_assoc. apply IH. apply holds_hstack; auto.
Qed.

Lemma holds_join : forall sets css, Forall2 holds sets css -> sets <> [] ->
  exists rs, join_sets sets = Some rs /\ holds rs (renumber 0 (concat css)).
Proof.
  intros sets css H N. destruct H as [|s c sets css Hs H]; [congruence|]. cbn [join_sets concat].
  pose proof (holds_fold sets css s c H Hs) as (L & W & G).
  set (rs := fold_left hstack sets s) in *. cbv zeta.
  destruct (set_some Id (Values (width rs) INR) rs) as [rs' S]; [cbn; rewrite Nat.eqb_refl; discriminate|].
  exists rs'. split; [exact S|].
  destruct (set_frow Id _ rs rs' L Logic.I S) as (r & B & W' & L' & _).
  cbn in B. rewrite Nat.eqb_refl in B. injection B as <-.
  split; [exact L'|]. rewrite renumber_len. split; [congruence|].
  intros j x f E F. destruct (nth_error_renumber _ _ _ _ E) as (c0 & E0 & ->).
  assert (J : (j < width rs)%nat) by (rewrite W; apply nth_error_Some; congruence).
  destruct (set_get Id _ rs rs' f j L Logic.I F S J) as [X Y].
  destruct f as [k a| | | | |];
    try (rewrite Y by discriminate; rewrite (G j c0) by auto; reflexivity).
  destruct (X eq_refl) as (r & B & ->). cbn in B. rewrite Nat.eqb_refl in B. injection B as <-. reflexivity.
Qed.

Lemma holds_mask : forall rs cs mask p, holds rs cs ->
  (forall j c, nth_error cs j = Some c -> mask j = p c) ->
  holds (mask_cols mask rs) (filter p cs).
Proof.
  intros rs cs mask p (L & W & H) M. destruct (picked_filter _ p cs mask M) as [Lp N].
  split; [|split].
  - unfold is_rayset, mask_cols. cbn [rows]. rewrite map_length. exact L.
  - unfold mask_cols. cbn [width]. rewrite W. exact Lp.
  - intros k c f E F.
    assert (K : (k < length (picked (width rs) mask))%nat) by (rewrite W, Lp; apply nth_error_Some; congruence).
    rewrite mask_get by auto. rewrite W. apply H; auto.
Qed.

(** [rs[..., mask] = g(rs[..., mask])]: the masked rays are replaced, the others kept *)
Lemma holds_put : forall rs sub cs mask p g, holds rs cs ->
  (forall j c, nth_error cs j = Some c -> mask j = p c) ->
  holds sub (map g (filter p cs)) ->
  holds (put mask sub rs) (map (fun c => if p c then g c else c) cs).
Proof.
  intros rs sub cs mask p g (L & W & H) M (Ls & Ws & Hs). unfold is_rayset in *.
  assert (LP : length (rows (put mask sub rs)) = 13%nat)
    by (unfold put; cbn [rows]; rewrite map_length, combine_length; lia).
  split; [exact LP|]. rewrite map_length. split; [exact W|].
  intros j c' f E F. rewrite nth_error_map in E.
  destruct (nth_error cs j) as [c|] eqn:Ec; [|discriminate]. cbn [option_map] in E.
  assert (J : (j < width rs)%nat) by (rewrite W; apply nth_error_Some; congruence).
  rewrite get_row by auto. rewrite row_column, column_put by lia.
  rewrite (M j c Ec). destruct (p c) eqn:Pc; injection E as <-.
  - destruct (picked_filter _ p cs mask M) as [Lp N]. rewrite <- W in Lp, N.
    destruct (picked_nth (width rs) mask j J ltac:(rewrite (M j c Ec); exact Pc)) as [K NK].
    set (k := length (picked j mask)) in *.
    assert (Ek : nth_error (filter p cs) k = Some c).
    { destruct (nth_error (filter p cs) k) as [c0|] eqn:E0; [|apply nth_error_None in E0; lia].
      pose proof (N k c0 E0) as X. rewrite NK in X. congruence. }
    rewrite <- row_column, <- get_row.
    + apply Hs; auto. rewrite nth_error_map, Ek. reflexivity.
    + exact F.
    + rewrite Ws, map_length. lia.
  - rewrite <- row_column, <- get_row by auto. apply H; auto.
Qed.

(** *** overlap *)
Lemma fold_min_le : forall l a, fold_left Rmin l a <= a /\ (forall x, In x l -> fold_left Rmin l a <= x) /\
  In (fold_left Rmin l a) (a :: l).
Proof.
  induction l as [|y l IH]; intro a; [cbn; split; [lra|split; [tauto|auto]]|].
  cbn [fold_left]. destruct (IH (Rmin a y)) as (A & B & C).
  pose proof (Rmin_l a y). pose proof (Rmin_r a y). split; [lra|]. split.
  - intros x [->|H']; [lra|auto].
  - destruct C as [C|C]; [|cbn; auto]. rewrite <- C. unfold Rmin. destruct (Rle_dec a y); cbn; auto.
Qed.
Lemma fold_max_ge : forall l a, a <= fold_left Rmax l a /\ (forall x, In x l -> x <= fold_left Rmax l a) /\
  In (fold_left Rmax l a) (a :: l).
Proof.
  induction l as [|y l IH]; intro a; [cbn; split; [lra|split; [tauto|auto]]|].
  cbn [fold_left]. destruct (IH (Rmax a y)) as (A & B & C).
  pose proof (Rmax_l a y). pose proof (Rmax_r a y). split; [lra|]. split.
  - intros x [->|H']; [lra|auto].
  - destruct C as [C|C]; [|cbn; auto]. rewrite <- C. unfold Rmax. destruct (Rle_dec a y); cbn; auto.
Qed.
Lemma list_min_least : forall l, l <> [] -> In (list_min l) l /\ forall x, In x l -> list_min l <= x.
Proof.
  intros [|a l] H; [congruence|]. cbn [list_min]. destruct (fold_min_le l a) as (A & B & C).
  split; [exact C|]. intros x [->|X]; auto.
Qed.
Lemma list_max_most : forall l, l <> [] -> In (list_max l) l /\ forall x, In x l -> x <= list_max l.
Proof.
  intros [|a l] H; [congruence|]. cbn [list_max]. destruct (fold_max_ge l a) as (A & B & C).
  split; [exact C|]. intros x [->|X]; auto.
Qed.

Lemma overlap_spec : forall a b, a <> [] -> b <> [] ->
  exists p, (forall x, p x = true <->
               (exists y, In y a /\ y <= x) /\ (exists y, In y b /\ y <= x) /\
               (exists y, In y a /\ x <= y) /\ (exists y, In y b /\ x <= y)) /\
            overlap a b = Some (filter p a, filter p b).
Proof.
  intros a b A B.
  exists (fun x => (rleb (list_max [list_min a; list_min b]) x && rleb x (list_min [list_max a; list_max b]))%bool).
  split.
  - intro x. destruct (list_min_least a A) as [a1 a2]. destruct (list_min_least b B) as [b1 b2].
    destruct (list_max_most a A) as [a3 a4]. destruct (list_max_most b B) as [b3 b4].
    cbn [list_max list_min fold_left]. rewrite andb_true_iff, !rleb_true.
    change (match a with [] => 0 | x0 :: r => fold_left Rmax r x0 end) with (list_max a).
    set (na := list_min a) in *. set (nb := list_min b) in *. set (xa := list_max a) in *. set (xb := list_max b) in *.
    split.
    + intros [P Q]. pose proof (Rmax_l na nb). pose proof (Rmax_r na nb).
      pose proof (Rmin_l xa xb). pose proof (Rmin_r xa xb).
      split; [exists na|split; [exists nb|split; [exists xa|exists xb]]]; split; auto; lra.
    + intros ((y1 & I1 & L1) & (y2 & I2 & L2) & (y3 & I3 & L3) & (y4 & I4 & L4)).
      specialize (a2 _ I1). specialize (b2 _ I2). specialize (a4 _ I3). specialize (b4 _ I4).
      split; [apply Rmax_lub; lra|apply Rmin_glb; lra].
  - destruct a; [congruence|]. destruct b; [congruence|]. reflexivity.
Qed.

Lemma disk_spec : forall r x y, disk_contains r x y = true <-> 0 <= r /\ x * x + y * y <= r * r.
Proof.
  intros. unfold disk_contains. rewrite rleb_true. assert (S : 0 <= x * x + y * y) by nra. split.
  - intro H. pose proof (sqrt_pos (x * x + y * y)). split; [lra|].
    rewrite <- (sqrt_sqrt (x * x + y * y)) by exact S. nra.
  - intros [R H]. rewrite <- (sqrt_square r) by exact R. apply sqrt_le_1_alt. exact H.
Qed.

Lemma rectangle_spec : forall xl yl x y, rectangle_contains xl yl x y = true <->
  - (xl / 2) <= x <= xl / 2 /\ - (yl / 2) <= y <= yl / 2.
Proof.
  intros. unfold rectangle_contains. rewrite andb_true_iff, !rleb_true.
  assert (A : forall u v, Rabs u <= v <-> - v <= u <= v).
  { intros u v. unfold Rabs. destruct (Rcase_abs u); split; lra. }
  rewrite !A. tauto.
Qed.
