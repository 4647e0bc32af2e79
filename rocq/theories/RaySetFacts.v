(** * RaySetFacts: reading and writing the fields of a RaySet *)
From Coq Require Import Reals List Bool ZArith Arith Lia Lra.
Import ListNotations.
From Verif Require Import XR Arr ArrFacts Lin Ops Prim Csg Surf World Tracer Sources Batch BatchFacts RaySet SpecRaySet XRFacts.
Open Scope R_scope.

(** the row of the array a field lives in *)
Definition frow (f : field) : nat :=
  match f with Coord k axis => 4 * k + axis | f => 8 + meta_row f end%nat.

Lemma nth_skipn : forall A (d : A) k i l, nth i (skipn k l) d = nth (k + i) l d.
Proof.
  intros A d k. induction k as [|k IH]; intros i l; [reflexivity|].
  destruct l; [destruct i; reflexivity|]. cbn. apply IH.
Qed.
Lemma nth_firstn_in : forall A (d : A) k i l, (i < k)%nat -> nth i (firstn k l) d = nth i l d.
Proof.
  intros A d k. induction k as [|k IH]; intros i l H; [lia|].
  destruct l; [reflexivity|]. destruct i; [reflexivity|]. cbn. apply IH. lia.
Qed.

Lemma frow_lt : forall f, field_ok f -> (frow f < 13)%nat.
Proof. intros [k a| | | | |] H; cbn in *; lia. Qed.

Lemma frow_inj : forall f g, field_ok f -> field_ok g -> frow f = frow g -> f = g.
Proof.
  intros [k a| | | | |] [k' a'| | | | |] F G E; cbn in *; try reflexivity; try lia.
  f_equal; lia.
Qed.

Lemma get_row : forall rs f j, field_ok f -> (j < width rs)%nat ->
  get rs f j = row 0 rs (frow f) j.
Proof.
  intros rs f j F J. destruct f as [k a| | | | |];
    try (cbn [get frow]; unfold metadata, bottom_rows, row; cbn [rows]; rewrite nth_skipn; reflexivity).
  cbn [get frow]. cbn in F. unfold ray_item, view_item, top_rows, row. cbn [rows].
  rewrite Nat.div_add_l by lia. rewrite Nat.div_small by lia.
  replace (((4 * k + a) * width rs + j) mod width rs)%nat with j.
  2:{ rewrite Nat.add_comm, Nat.mod_add by lia. symmetry. apply Nat.mod_small. lia. }
  rewrite nth_firstn_in by lia. rewrite Nat.add_0_r. reflexivity.
Qed.

Lemma nth_replace_nth : forall A (d : A) i x l k, (i < length l)%nat ->
  nth k (replace_nth i x l) d = if (k =? i)%nat then x else nth k l d.
Proof.
  intros A d i x l. revert i. induction l as [|y l IH]; intros i k H; [cbn in H; lia|].
  destruct i; destruct k; cbn [replace_nth nth]; try reflexivity.
  cbn in H. rewrite IH by lia. reflexivity.
Qed.

Lemma set_frow : forall f v rs rs', is_rayset rs -> field_ok f -> set f v rs = Some rs' ->
  exists r, broadcast (width rs) v = Some r /\ width rs' = width rs /\ is_rayset rs' /\
    forall i j, (i < 13)%nat -> (j < width rs)%nat ->
      row 0 rs' i j = if (i =? frow f)%nat then r j else row 0 rs i j.
Proof.
  intros f v rs rs' L F S. unfold set in S. unfold is_rayset in *.
  destruct (broadcast (width rs) v) as [r|]; [|discriminate]. exists r. split; [reflexivity|].
  injection S as <-.
  assert (M : forall m, (m < 5)%nat ->
    width (set_metadata_row m r rs) = width rs /\ length (rows (set_metadata_row m r rs)) = 13%nat /\
    forall i j, (i < 13)%nat -> (j < width rs)%nat ->
      row 0 (set_metadata_row m r rs) i j = if (i =? 8 + m)%nat then r j else row 0 rs i j).
  { intros m Hm. split; [reflexivity|].
    assert (L8 : length (firstn 8 (rows rs)) = 8%nat) by (rewrite firstn_length; lia).
    assert (L5 : length (skipn 8 (rows rs)) = 5%nat) by (rewrite skipn_length; lia).
    split.
    - unfold set_metadata_row. cbn [rows]. rewrite app_length, replace_nth_length. lia.
    - intros i j I J. unfold set_metadata_row, row. cbn [rows].
      destruct (Nat.ltb_spec i 8).
      + rewrite app_nth1 by lia. rewrite nth_firstn_in by lia.
        replace (i =? 8 + m)%nat with false by (symmetry; apply Nat.eqb_neq; lia). reflexivity.
      + rewrite app_nth2 by lia. rewrite nth_replace_nth by lia. rewrite L8, nth_skipn.
        replace (8 + (i - 8))%nat with i by lia.
        destruct (Nat.eqb_spec (i - 8) m); destruct (Nat.eqb_spec i (8 + m)); try lia; reflexivity. }
  destruct f as [k a| | | | |]; try (apply M; cbn; lia).
  cbn [field_ok] in F. clear M. split; [reflexivity|]. split.
  - unfold set_ray_row. cbn [rows]. rewrite map_length, combine_length, seq_length. lia.
  - intros i j I J. cbn [frow]. unfold set_ray_row, row at 1. cbn [rows].
    set (n := width rs) in *.
    set (g := fun (q : nat * (nat -> R)) (j0 : nat) => _).
    assert (E : nth i (map g (combine (seq 0 (length (rows rs))) (rows rs))) (fun _ => 0)
                = g (i, nth i (rows rs) (fun _ => 0))).
    { rewrite (nth_indep _ (fun _ => 0) (g (0%nat, fun _ => 0))) by (rewrite map_length, combine_length, seq_length; lia).
      rewrite map_nth, combine_nth by apply seq_length. rewrite seq_nth by lia. reflexivity. }
    rewrite E. unfold g. cbn [fst snd]. unfold row.
    destruct (Nat.eqb_spec i (4 * k + a)) as [->|N].
    + replace ((4 * k + a) * n <=? (4 * k + a) * n + j)%nat with true by (symmetry; apply Nat.leb_le; lia).
      replace ((4 * k + a) * n + j <? (4 * k + a) * n + n)%nat with true by (symmetry; apply Nat.ltb_lt; lia).
      replace (4 * k + a <? 8)%nat with true by (symmetry; apply Nat.ltb_lt; lia).
      cbn [andb]. f_equal. lia.
    + replace (((4 * k + a) * n <=? i * n + j) && (i * n + j <? (4 * k + a) * n + n))%nat%bool with false; [reflexivity|].
      symmetry. destruct (Nat.leb_spec ((4 * k + a) * n) (i * n + j)); cbn [andb]; [|reflexivity].
      apply Nat.ltb_ge. assert (i > 4 * k + a)%nat by nia. nia.
Qed.

Lemma set_get : forall f v rs rs' g j, is_rayset rs -> field_ok f -> field_ok g ->
  set f v rs = Some rs' -> (j < width rs)%nat ->
  (g = f -> exists r, broadcast (width rs) v = Some r /\ get rs' g j = r j) /\
  (g <> f -> get rs' g j = get rs g j).
Proof.
  intros f v rs rs' g j L F G S J.
  destruct (set_frow f v rs rs' L F S) as (r & B & W & L' & E).
  pose proof (frow_lt g G). rewrite (get_row rs' g) by (auto; lia). rewrite (get_row rs g) by auto.
  rewrite E by auto. split; intro H'.
  - subst g. rewrite Nat.eqb_refl. eauto.
  - destruct (Nat.eqb_spec (frow g) (frow f)) as [X|X]; [|reflexivity].
    exfalso. apply H'. apply frow_inj; auto.
Qed.

Lemma set_some : forall f v rs, broadcast (width rs) v <> None -> exists rs', set f v rs = Some rs'.
Proof. intros f v rs H. unfold set. destruct (broadcast (width rs) v); [eauto|congruence]. Qed.

(** *** A new set *)
Lemma new_set_fields : forall n, exists rs, new_set n = Some rs /\ is_rayset rs /\ width rs = n /\
  forall j, (j < n)%nat ->
    (forall k a, (k < 2)%nat -> (a < 4)%nat -> get rs (Coord k a) j = bundle k a j) /\
    get rs Generation j = 0 /\ get rs Intensity j = 100 /\ get rs Wavelength j = 633 / 1000 /\
    get rs Index j = 1 /\ get rs Id j = INR j.
Proof.
  intro n. unfold new_set. set (z := set_rays bundle (full 13 n 0)).
  assert (Lz : is_rayset z) by reflexivity. assert (Wz : width z = n) by reflexivity.
  assert (Z : forall k a j, (k < 2)%nat -> (a < 4)%nat -> (j < n)%nat -> get z (Coord k a) j = bundle k a j).
  { intros k a j K A J. rewrite get_row by (cbn; auto). cbn [frow].
    assert (K' : k = 0%nat \/ k = 1%nat) by lia.
    assert (A' : a = 0%nat \/ a = 1%nat \/ a = 2%nat \/ a = 3%nat) by lia.
    destruct K' as [-> | ->], A' as [-> | [-> | [-> | ->]]]; reflexivity. }
  clearbody z.
  assert (G : forall f v rs, is_rayset rs -> width rs = n -> field_ok f ->
     (exists x, v = Scalar x) \/ (exists x, v = Values n x) ->
     exists rs', set f v rs = Some rs' /\ is_rayset rs' /\ width rs' = n /\
       forall g j, field_ok g -> (j < n)%nat ->
         (g = f -> get rs' g j = match v with Scalar x => x | Values _ x => x j end) /\
         (g <> f -> get rs' g j = get rs g j)).
  { intros f v rs L W F V.
    assert (B : broadcast n v = Some (fun j => match v with Scalar x => x | Values _ x => x j end)).
    { destruct V as [[x ->]|[x ->]]; cbn; [reflexivity|]. rewrite Nat.eqb_refl. reflexivity. }
    destruct (set_some f v rs) as [rs' S]; [rewrite W, B; discriminate|].
    exists rs'. split; [exact S|].
    destruct (set_frow f v rs rs' L F S) as (r & Br & Wr & Lr & _).
    split; [exact Lr|]. split; [congruence|]. intros g j Hg Hj.
    destruct (set_get f v rs rs' g j L F Hg S ltac:(lia)) as [P Q]. split; [|exact Q].
    intro X. destruct (P X) as (r' & Br' & E). rewrite E. rewrite W, B in Br'. injection Br' as <-. reflexivity. }
  destruct (G Wavelength (Scalar (633 / 1000)) z Lz Wz Logic.I ltac:(left; eauto)) as (s1 & -> & L1 & W1 & E1).
  cbn [bind].
  destruct (G Index (Scalar 1) s1 L1 W1 Logic.I ltac:(left; eauto)) as (s2 & -> & L2 & W2 & E2). cbn [bind].
  destruct (G Generation (Scalar 0) s2 L2 W2 Logic.I ltac:(left; eauto)) as (s3 & -> & L3 & W3 & E3). cbn [bind].
  destruct (G Intensity (Scalar 100) s3 L3 W3 Logic.I ltac:(left; eauto)) as (s4 & -> & L4 & W4 & E4). cbn [bind].
  destruct (G Id (Values n INR) s4 L4 W4 Logic.I ltac:(right; eauto)) as (s5 & -> & L5 & W5 & E5).
  exists s5. split; [reflexivity|]. split; [exact L5|]. split; [exact W5|]. intros j J.
  assert (K : forall g, field_ok g -> g <> Id -> get s5 g j = get s4 g j) by (intros; apply E5; auto).
  assert (K4 : forall g, field_ok g -> g <> Intensity -> get s4 g j = get s3 g j) by (intros; apply E4; auto).
  assert (K3 : forall g, field_ok g -> g <> Generation -> get s3 g j = get s2 g j) by (intros; apply E3; auto).
  assert (K2 : forall g, field_ok g -> g <> Index -> get s2 g j = get s1 g j) by (intros; apply E2; auto).
  assert (K1 : forall g, field_ok g -> g <> Wavelength -> get s1 g j = get z g j) by (intros; apply E1; auto).
  split; [|repeat split].
  - intros k a Hk Ha. assert (F : field_ok (Coord k a)) by (cbn; auto).
    rewrite K, K4, K3, K2, K1 by (auto; discriminate). apply Z; auto.
  - rewrite K, K4 by (cbn; auto; discriminate). apply E3; auto. exact Logic.I.
  - rewrite K by (cbn; auto; discriminate). apply E4; auto. exact Logic.I.
  - rewrite K, K4, K3, K2 by (cbn; auto; discriminate). apply E1; auto. exact Logic.I.
  - rewrite K, K4, K3 by (cbn; auto; discriminate). apply E2; auto. exact Logic.I.
  - apply E5; auto. exact Logic.I.
Qed.

(** *** Stacking and masking *)
Lemma hstack_rayset : forall a b, is_rayset a -> is_rayset b ->
  is_rayset (hstack a b) /\ width (hstack a b) = (width a + width b)%nat /\
  forall f j, field_ok f -> (j < width a + width b)%nat ->
    get (hstack a b) f j = if (j <? width a)%nat then get a f j else get b f (j - width a).
Proof.
  intros a b A B. unfold is_rayset in *.
  assert (L : length (rows (hstack a b)) = 13%nat)
    by (unfold hstack; cbn [rows]; rewrite map_length, combine_length; lia).
  split; [exact L|]. split; [reflexivity|]. intros f j F J.
  rewrite get_row by auto. destruct (Nat.ltb_spec j (width a)).
  - rewrite get_row by auto. rewrite !row_column, column_hstack_l by lia. reflexivity.
  - rewrite get_row by (auto; lia). rewrite !row_column.
    replace j with (width a + (j - width a))%nat at 1 by lia. rewrite column_hstack_r by lia. reflexivity.
Qed.

Lemma mask_get : forall mask rs f k, is_rayset rs -> field_ok f ->
  (k < length (picked (width rs) mask))%nat ->
  get (mask_cols mask rs) f k = get rs f (nth k (picked (width rs) mask) 0%nat).
Proof.
  intros mask rs f k L F K.
  assert (P : (nth k (picked (width rs) mask) 0 < width rs)%nat).
  { pose proof (nth_In _ 0%nat K) as H. unfold picked in H. apply filter_In in H. destruct H as [H _].
    apply in_seq in H. unfold picked. lia. }
  rewrite !get_row by auto. unfold mask_cols, row. cbn [rows].
  rewrite (nth_indep _ (fun _ => 0) (select (width rs) mask (fun _ => 0)))
    by (rewrite map_length; unfold is_rayset in L; rewrite L; apply frow_lt; exact F).
  rewrite map_nth. reflexivity.
Qed.

Lemma picked_filter : forall A (p : A -> bool) (cs : list A) mask,
  (forall j c, nth_error cs j = Some c -> mask j = p c) ->
  length (picked (length cs) mask) = length (filter p cs) /\
  forall k c, nth_error (filter p cs) k = Some c ->
    nth_error cs (nth k (picked (length cs) mask) 0%nat) = Some c.
Proof.
  intros A p cs. induction cs as [|x cs IH] using rev_ind; intros mask H; [cbn; split; [reflexivity|intros [|k]; discriminate]|].
  assert (H' : forall j c, nth_error cs j = Some c -> mask j = p c).
  { intros j c E. apply H. rewrite nth_error_app1; [exact E|]. apply nth_error_Some. congruence. }
  destruct (IH mask H') as [L N].
  assert (X : mask (length cs) = p x).
  { apply H. rewrite nth_error_app2 by lia. rewrite Nat.sub_diag. reflexivity. }
  assert (P : picked (length (cs ++ [x])) mask = picked (length cs) mask ++ (if p x then [length cs] else [])).
  { unfold picked. rewrite app_length. cbn [length]. rewrite seq_app, filter_app. cbn [seq filter Nat.add].
    rewrite X. destruct (p x); reflexivity. }
  assert (Q : filter p (cs ++ [x]) = filter p cs ++ (if p x then [x] else [])).
  { rewrite filter_app. cbn [filter]. destruct (p x); reflexivity. }
  rewrite P, Q. split.
  - rewrite !app_length, L. destruct (p x); reflexivity.
  - intros k c E. destruct (Nat.ltb_spec k (length (filter p cs))) as [K|K].
    + rewrite nth_error_app1 in E by exact K. rewrite app_nth1 by lia. specialize (N k c E).
      rewrite nth_error_app1; [exact N|]. apply nth_error_Some. congruence.
    + rewrite nth_error_app2 in E by exact K. rewrite app_nth2 by lia. rewrite L.
      destruct (p x); [|destruct (k - _)%nat; discriminate].
      destruct (k - length (filter p cs))%nat as [|q]; [|destruct q; discriminate].
      cbn [nth_error nth] in *. injection E as <-. rewrite nth_error_app2 by lia. rewrite Nat.sub_diag. reflexivity.
Qed.
