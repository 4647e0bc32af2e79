(** * CsgFacts: lemmas about array_csg and csg_combine *)
From Coq Require Import List Bool ZArith Permutation Sorted Lia Arith.
Import ListNotations.
From Verif Require Import Arr Csg SpecCsg ArrFacts.

(** Masks *)
Lemma csg_mask_pm1 : forall op n1 i, csg_mask op n1 i = 1%Z \/ csg_mask op n1 i = (-1)%Z.
Proof. intros [] n1 i; simpl; [destruct (Nat.odd i)..|destruct (xorb _ _)]; auto. Qed.

Definition b2z (b : bool) : Z := if b then 1%Z else 0%Z.

Lemma zsum_alt : forall k, zsum (map (fun i => if Nat.odd i then (-1)%Z else 1%Z) (seq 0 k)) = b2z (Nat.odd k).
Proof.
  induction k; auto.
  rewrite seq_S, map_app, zsum_app, IHk. cbn [map zsum fold_right].
  rewrite Nat.odd_succ, <- Nat.negb_odd. simpl (0 + k).
  destruct (Nat.odd k); simpl; lia.
Qed.

(** sum of the masks of the first [k1] hits of array 1 and the first [k2] of array 2 *)
Definition init_count (op : operation) : Z := match op with DIFFERENCE => 1%Z | _ => 0%Z end.

Lemma mask_sum : forall op n1 k1 k2, Nat.odd n1 = false -> k1 <= n1 ->
  zsum (map (csg_mask op n1) (seq 0 k1 ++ map (fun i => n1 + i) (seq 0 k2)))
  = match op with
    | DIFFERENCE => (b2z (Nat.odd k1) - b2z (Nat.odd k2))%Z
    | _ => (b2z (Nat.odd k1) + b2z (Nat.odd k2))%Z
    end.
Proof.
  intros op n1 k1 k2 He Hk. rewrite map_app, zsum_app, map_map.
  assert (O : forall i, Nat.odd (n1 + i) = Nat.odd i).
  { intro i. rewrite Nat.odd_add, He. destruct (Nat.odd i); auto. }
  assert (E1 : forall i, In i (seq 0 k1) -> Nat.leb n1 i = false).
  { intros i Hi. apply in_seq in Hi. apply Nat.leb_gt. lia. }
  assert (E2 : forall i, Nat.leb n1 (n1 + i) = true).
  { intros i. apply Nat.leb_le. lia. }
  destruct op; unfold csg_mask.
  - rewrite zsum_alt. f_equal. rewrite <- zsum_alt. f_equal. apply map_ext. intro; rewrite O; auto.
  - rewrite zsum_alt. f_equal. rewrite <- zsum_alt. f_equal. apply map_ext. intro; rewrite O; auto.
  - rewrite <- (zsum_alt k1), <- (zsum_alt k2).
    unfold Z.sub. f_equal.
    + f_equal. apply map_ext_in. intros i Hi. rewrite (E1 i Hi), xorb_false_r; auto.
    + replace (zsum _) with (zsum (map Z.opp (map (fun i => if Nat.odd i then (-1)%Z else 1%Z) (seq 0 k2)))).
      * generalize (map (fun i => if Nat.odd i then (-1)%Z else 1%Z) (seq 0 k2)).
        intro l; induction l; simpl; lia.
      * rewrite map_map. f_equal. apply map_ext. intro i. rewrite O, E2. destruct (Nat.odd i); auto.
Qed.

(** The flag whose changes are the kept hits *)
Definition flag (op : operation) (z : Z) : bool :=
  match op with UNION => negb (Z.eqb z 0) | _ => Z.eqb z 2 end.

Lemma csg_count_cumsum : forall op n1 p,
  csg_count op n1 p = cumsum_from (init_count op) (map (csg_mask op n1) p).
Proof.
  intros [] n1 p; unfold csg_count, cumsum; auto.
  rewrite cumsum_map_add. auto.
Qed.

Lemma no_two_cumsum : forall l a prev, Forall (fun z => z = 1%Z \/ z = (-1)%Z) l ->
  (prev = true -> a = 2%Z) ->
  no_two prev (map (fun z => Z.eqb z 2) (cumsum_from a l)).
Proof.
  induction l as [|x r IH]; intros a prev F P; simpl; auto.
  inversion F; subst. split.
  - destruct prev; auto. rewrite P by auto. cbn [andb]. apply Z.eqb_neq. destruct H1; lia.
  - apply IH; auto. intro H. apply Z.eqb_eq; auto.
Qed.

Lemma csg_keep_adj : forall op n1 p,
  flag op (init_count op + zsum (map (csg_mask op n1) p)) = false ->
  csg_keep op n1 p =
  adj xorb false (map (flag op) (cumsum_from (init_count op) (map (csg_mask op n1) p))).
Proof.
  intros op n1 p H.
  assert (L : last (map (flag op) (cumsum_from (init_count op) (map (csg_mask op n1) p)))
                   (flag op (init_count op)) = false).
  { rewrite last_map, cumsum_last. exact H. }
  assert (Fm : Forall (fun z => z = 1%Z \/ z = (-1)%Z) (map (csg_mask op n1) p)).
  { rewrite Forall_map, Forall_forall. intros; apply csg_mask_pm1. }
  unfold csg_keep. rewrite csg_count_cumsum.
  destruct op.
  - rewrite (roll_adj xorb _ (flag UNION (init_count UNION))). unfold flag in L. unfold flag at 1. rewrite L. auto.
  - rewrite (roll_adj orb _ (flag INTERSECT (init_count INTERSECT))). unfold flag in L.  unfold flag at 1. rewrite L.
    apply adj_or_xor, no_two_cumsum; auto. discriminate.
  - rewrite (roll_adj orb _ (flag DIFFERENCE (init_count DIFFERENCE))). unfold flag in L.  unfold flag at 1. rewrite L.
    apply adj_or_xor, no_two_cumsum; auto. discriminate.
Qed.

Lemma where_fill_app {B} : forall m1 m2 (l1 l2 : list B) f, length m1 = length l1 ->
  where_fill (m1 ++ m2) (l1 ++ l2) f = where_fill m1 l1 f ++ where_fill m2 l2 f.
Proof.
  unfold where_fill. induction m1 as [|b m1 IH]; intros m2 [|x l1] l2 f H; simpl in *; try discriminate; auto.
  f_equal. apply IH. lia.
Qed.
Lemma where_fill_length {B} : forall m (l : list B) f, length m = length l -> length (where_fill m l f) = length l.
Proof. intros. unfold where_fill. rewrite map_length, combine_length. lia. Qed.

Section CsgFacts.
  Context {A : Type}.
  Variable leb : A -> A -> bool.
  Variable top : A.
  Variable asort : list A -> list nat.
  Hypothesis leb_total : forall a b, leb a b = true \/ leb b a = true.
  Hypothesis leb_trans : forall a b c, leb a b = true -> leb b c = true -> leb a c = true.
  Hypothesis AS : argsort_spec leb top asort.
  Notation le := (fun a b => leb a b = true).

  Lemma before_top : forall t, leb t top = true -> before leb top t = false.
  Proof. intros t H. unfold before. rewrite H; auto. Qed.

  Lemma below_where_all : forall t m l, leb t top = true -> length m = length l ->
    Forall (fun x => before leb x t = true) l ->
    below leb t (where_fill m l top) = count_true m.
  Proof.
    unfold where_fill, below, count_true.
    induction m as [|b m IH]; intros [|x l] Ht H F; simpl in *; try discriminate; auto.
    inversion F; subst. destruct b; simpl.
    - rewrite H2. simpl. f_equal. apply IH; auto; lia.
    - rewrite before_top by auto. apply IH; auto; lia.
  Qed.
  Lemma below_where_none : forall t m l, leb t top = true ->
    Forall (fun x => before leb x t = false) l ->
    below leb t (where_fill m l top) = 0.
  Proof.
    unfold where_fill. intros t m l Ht F. apply below_none.
    revert m; induction F; intros [|b m]; simpl; constructor; auto.
    destruct b; simpl; auto. apply before_top; auto.
  Qed.

  Lemma perm_filter {B} (f : B -> bool) : forall l l', Permutation l l' -> Permutation (filter f l) (filter f l').
  Proof.
    induction 1; simpl; auto.
    - destruct (f x); auto.
    - destruct (f x), (f y); auto. constructor.
    - etransitivity; eauto.
  Qed.

  Lemma filter_all {B} (f : B -> bool) : forall l, Forall (fun x => f x = true) l -> filter f l = l.
  Proof. induction 1; simpl; auto. rewrite H, IHForall; auto. Qed.
  Lemma filter_none {B} (f : B -> bool) : forall l, Forall (fun x => f x = false) l -> filter f l = [].
  Proof. induction 1; simpl; auto. rewrite H; auto. Qed.

  (** The indices of merged hits before [t], for two sorted arrays *)
  Lemma merged_filter : forall t l1 l2, StronglySorted le l1 -> StronglySorted le l2 ->
    filter (fun i => before leb (nth i (l1 ++ l2) top) t) (seq 0 (length (l1 ++ l2)))
    = seq 0 (below leb t l1) ++ map (fun i => length l1 + i) (seq 0 (below leb t l2)).
  Proof.
    intros t l1 l2 S1 S2. rewrite app_length, seq_app, filter_app. f_equal.
    - rewrite <- (sorted_filter_seq leb leb_trans t top l1 S1).
      apply filter_ext_in. intros i Hi. apply in_seq in Hi. rewrite app_nth1; auto; lia.
    - rewrite filter_seq_offset. f_equal. simpl.
      rewrite <- (sorted_filter_seq leb leb_trans t top l2 S2).
      apply filter_ext. intros i. rewrite app_nth2 by lia.
      replace (length l1 + i - length l1) with i by lia. auto.
  Qed.

  Lemma below_le : forall t l, below leb t l <= length l.
  Proof.
    intros t l; unfold below; induction l; simpl; auto.
    destruct (before leb a t); simpl; lia.
  Qed.

  Lemma keep_total_false : forall op l1 l2,
    Nat.odd (length l1) = false -> Nat.odd (length l2) = false ->
    flag op (init_count op + zsum (map (csg_mask op (length l1)) (asort (l1 ++ l2)))) = false.
  Proof.
    intros op l1 l2 E1 E2. destruct (AS (l1 ++ l2)) as [P _].
    assert (zsum (map (csg_mask op (length l1)) (asort (l1 ++ l2))) = 0%Z) as ->.
    { rewrite (zsum_perm _ _ (Permutation_map _ P)), app_length, seq_app.
      replace (seq (0 + length l1) (length l2)) with (map (fun i => length l1 + i) (seq 0 (length l2))).
      - rewrite mask_sum by auto. rewrite E1, E2. destruct op; auto.
      - clear. generalize (length l1) as k. induction (length l2) as [|n IH]; intro k; auto.
        rewrite !seq_S, map_app, IH. auto. }
    destruct op; auto.
  Qed.

  Lemma keep_length : forall op n1 p,
    length (csg_keep op n1 p) = length p.
  Proof.
    intros. unfold csg_keep.
    assert (L : forall (B : Type) (l : list B), length (roll1 l) = length l).
    { intros B l. destruct l as [|x r] using rev_ind; auto. rewrite roll1_snoc, app_length; simpl; lia. }
    assert (C : length (csg_count op n1 p) = length p).
    { rewrite csg_count_cumsum, cumsum_from_length, map_length; auto. }
    destruct op; rewrite map_length, combine_length, L, map_length, C; lia.
  Qed.

  (** C01, before sorting the output *)
  Lemma array_csg_unsorted_inside : forall op l1 l2 t, leb t top = true ->
    StronglySorted le l1 -> StronglySorted le l2 ->
    Nat.odd (length l1) = false -> Nat.odd (length l2) = false ->
    inside_at leb t (array_csg_unsorted top asort l1 l2 op)
    = bool_op op (inside_at leb t l1) (inside_at leb t l2).
  Proof.
    intros op l1 l2 t Ht S1 S2 E1 E2.
    destruct (AS (l1 ++ l2)) as [P S].
    unfold array_csg_unsorted.
    set (p := asort (l1 ++ l2)) in *.
    destruct (sorted_split leb leb_trans t _ S) as (g1 & g2 & EG & F1 & F2).
    assert (exists p1 p2, p = p1 ++ p2 /\ gather top (l1 ++ l2) p1 = g1 /\ gather top (l1 ++ l2) p2 = g2)
      as (p1 & p2 & EP & G1 & G2).
    { exists (firstn (length g1) p), (skipn (length g1) p). rewrite firstn_skipn. split; auto.
      rewrite <- (firstn_skipn (length g1) p) in EG. rewrite gather_app in EG.
      assert (Lf : length (firstn (length g1) p) = length g1).
      { apply firstn_length_le. rewrite <- (gather_length top (l1++l2) p), <- (firstn_skipn (length g1) p), gather_app, EG, app_length. lia. }
      split.
      - apply (f_equal (firstn (length g1))) in EG.
        rewrite firstn_app, gather_length, Lf, Nat.sub_diag, firstn_O, app_nil_r in EG.
        rewrite firstn_app, Nat.sub_diag, firstn_O, app_nil_r, firstn_all in EG.
        rewrite firstn_all2 in EG; auto. rewrite gather_length; lia.
      - apply (f_equal (skipn (length g1))) in EG.
        rewrite skipn_app, gather_length, Lf, Nat.sub_diag in EG.
        rewrite skipn_app, Nat.sub_diag, skipn_all in EG.
        rewrite skipn_all2 in EG; [|rewrite gather_length; lia]. exact EG. }
    assert (Hlast := keep_total_false op l1 l2 E1 E2). fold p in Hlast.
    rewrite csg_keep_adj by exact Hlast.
    rewrite EP, map_app, cumsum_from_app, map_app, adj_app, gather_app, G1, G2.
    set (K1 := adj xorb false (map (flag op) (cumsum_from (init_count op) (map (csg_mask op (length l1)) p1)))).
    assert (LK : length K1 = length g1).
    { unfold K1. rewrite adj_length, map_length, cumsum_from_length, map_length, <- G1, gather_length; auto. }
    rewrite where_fill_app by exact LK.
    unfold inside_at at 1.
    rewrite below_app, (below_where_all t K1 g1 Ht LK F1), below_where_none by auto.
    rewrite Nat.add_0_r. unfold K1. rewrite count_true_xor, xorb_false_l.
    (* the count after the prefix *)
    assert (PP : Permutation p1 (seq 0 (below leb t l1) ++ map (fun i => length l1 + i) (seq 0 (below leb t l2)))).
    { rewrite <- merged_filter by auto.
      rewrite <- (perm_filter _ _ _ P). rewrite EP, filter_app.
      rewrite filter_all, filter_none, app_nil_r; auto.
      - rewrite <- G2 in F2. unfold gather in F2. rewrite Forall_map in F2. exact F2.
      - rewrite <- G1 in F1. unfold gather in F1. rewrite Forall_map in F1. exact F1. }
    assert (Z0 : zsum (map (csg_mask op (length l1)) p1) = 
       match op with
       | DIFFERENCE => (b2z (Nat.odd (below leb t l1)) - b2z (Nat.odd (below leb t l2)))%Z
       | _ => (b2z (Nat.odd (below leb t l1)) + b2z (Nat.odd (below leb t l2)))%Z
       end).
    { rewrite (zsum_perm _ _ (Permutation_map _ PP)). apply mask_sum; auto. apply below_le. }
    replace (last (map (flag op) (cumsum_from (init_count op) (map (csg_mask op (length l1)) p1))) false)
      with (flag op (init_count op + zsum (map (csg_mask op (length l1)) p1))%Z).
    - rewrite Z0. unfold inside_at.
      destruct op, (Nat.odd (below leb t l1)), (Nat.odd (below leb t l2)); reflexivity.
    - assert (E : flag op (init_count op) = false) by (destruct op; auto).
      symmetry in E. revert E. generalize false as d. intros d ->. rewrite last_map, cumsum_last. auto.
  Qed.

  Lemma array_csg_inside : forall op l1 l2 t, leb t top = true ->
    StronglySorted le l1 -> StronglySorted le l2 ->
    Nat.odd (length l1) = false -> Nat.odd (length l2) = false ->
    inside_at leb t (array_csg leb top asort l1 l2 op)
    = bool_op op (inside_at leb t l1) (inside_at leb t l2).
  Proof.
    intros. rewrite <- array_csg_unsorted_inside by auto.
    unfold inside_at, array_csg. rewrite (below_perm leb t _ _ (sort_perm leb _)). auto.
  Qed.

  Lemma array_csg_unsorted_length : forall op l1 l2,
    length (array_csg_unsorted top asort l1 l2 op) = length l1 + length l2.
  Proof.
    intros. unfold array_csg_unsorted. destruct (AS (l1 ++ l2)) as [P _].
    apply Permutation_length in P. rewrite seq_length, app_length in P.
    rewrite where_fill_length; rewrite ?gather_length, ?keep_length; auto.
  Qed.

  Lemma array_csg_length : forall op l1 l2,
    length (array_csg leb top asort l1 l2 op) = length l1 + length l2.
  Proof. intros. unfold array_csg. rewrite sort_length. apply array_csg_unsorted_length. Qed.

  Lemma array_csg_sorted : forall op l1 l2, StronglySorted le (array_csg leb top asort l1 l2 op).
  Proof. intros. apply sort_sorted; auto. Qed.

  (** the kept hits are a sub-multiset of the inputs *)
  Lemma where_count : forall (eqd : forall a b : A, {a = b} + {a <> b}) v m l,
    v <> top -> count_occ eqd (where_fill m l top) v <= count_occ eqd l v.
  Proof.
    unfold where_fill. intros eqd v m; induction m as [|b m IH]; intros [|x l] H; simpl; try lia.
    specialize (IH l H). destruct b; simpl.
    - destruct (eqd x v); lia.
    - destruct (eqd top v); [congruence|]. destruct (eqd x v); lia.
  Qed.

  Lemma count_occ_perm (eqd : forall a b : A, {a = b} + {a <> b}) : forall l l' v,
    Permutation l l' -> count_occ eqd l v = count_occ eqd l' v.
  Proof.
    induction 1; simpl; auto.
    - destruct (eqd x v); auto.
    - destruct (eqd x v), (eqd y v); auto.
    - congruence.
  Qed.

  Lemma array_csg_count : forall (eqd : forall a b : A, {a = b} + {a <> b}) op l1 l2 v,
    v <> top ->
    count_occ eqd (array_csg leb top asort l1 l2 op) v <= count_occ eqd l1 v + count_occ eqd l2 v.
  Proof.
    intros. unfold array_csg. rewrite (count_occ_perm eqd _ _ _ (sort_perm leb _)).
    unfold array_csg_unsorted. etransitivity; [apply where_count; auto|].
    destruct (AS (l1 ++ l2)) as [P _].
    rewrite (count_occ_perm eqd _ _ _ (gather_perm top _ _ P)), count_occ_app. auto.
  Qed.

  (** ** csg_combine: hits and ids stay aligned *)
  Lemma gather_combine {B C} : forall (b : B) (c : C) l l' p, length l = length l' ->
    combine (gather b l p) (gather c l' p) = gather (b, c) (combine l l') p.
  Proof.
    intros. unfold gather. induction p; simpl; auto. rewrite IHp. f_equal.
    rewrite combine_nth; auto.
  Qed.

  Lemma csg_combine_hits_perm : forall op lh ls rh rs,
    Permutation (fst (csg_combine top asort op lh ls rh rs)) (array_csg_unsorted top asort lh rh op).
  Proof. intros. simpl. apply gather_perm. apply AS. Qed.

  Lemma csg_combine_sorted : forall op lh ls rh rs,
    StronglySorted le (fst (csg_combine top asort op lh ls rh rs)).
  Proof. intros. simpl. apply AS. Qed.

  Lemma csg_combine_length : forall op lh ls rh rs,
    length (fst (csg_combine top asort op lh ls rh rs)) = length lh + length rh /\
    length (snd (csg_combine top asort op lh ls rh rs)) = length lh + length rh.
  Proof.
    intros. simpl. rewrite !gather_length.
    destruct (AS (array_csg_unsorted top asort lh rh op)) as [P _].
    apply Permutation_length in P. rewrite seq_length, array_csg_unsorted_length in P. auto.
  Qed.

  Lemma csg_combine_inside : forall op lh ls rh rs t, leb t top = true ->
    StronglySorted le lh -> StronglySorted le rh ->
    Nat.odd (length lh) = false -> Nat.odd (length rh) = false ->
    inside_at leb t (fst (csg_combine top asort op lh ls rh rs))
    = bool_op op (inside_at leb t lh) (inside_at leb t rh).
  Proof.
    intros. rewrite <- array_csg_unsorted_inside by auto.
    unfold inside_at. f_equal. apply below_perm, csg_combine_hits_perm.
  Qed.

  Lemma csg_combine_pair : forall op lh ls rh rs h s,
    length lh = length ls -> length rh = length rs ->
    In (h, s) (combine (fst (csg_combine top asort op lh ls rh rs))
                       (snd (csg_combine top asort op lh ls rh rs))) ->
    h = top \/ In (h, s) (combine lh ls) \/ In (h, s) (combine rh rs).
  Proof.
    intros op lh ls rh rs h s L1 L2 HIn.
    simpl in HIn.
    destruct (AS (lh ++ rh)) as [P _].
    set (p := asort (lh ++ rh)) in *.
    assert (LU := array_csg_unsorted_length op lh rh).
    assert (Lp : length p = length lh + length rh).
    { apply Permutation_length in P. rewrite seq_length, app_length in P; auto. }
    rewrite gather_combine in HIn by (rewrite LU, gather_length; auto).
    destruct (AS (array_csg_unsorted top asort lh rh op)) as [Q _].
    apply (Permutation_in (l' := combine (array_csg_unsorted top asort lh rh op) (gather (-1)%Z (ls ++ rs) p))) in HIn.
    2:{ apply gather_perm. rewrite combine_length, gather_length, LU, Lp, Nat.min_id. rewrite LU in Q. exact Q. }
    (* unsorted pairs *)
    unfold array_csg_unsorted in HIn. fold p in HIn.
    assert (X : forall m g q, In (h, s) (combine (where_fill m g top) q) -> h = top \/ In (h, s) (combine g q)).
    { unfold where_fill. clear. induction m as [|b m IH]; intros [|x g] [|y q]; simpl; try tauto.
      intros [E|E].
      - destruct b; simpl in E; inversion E; subst; auto.
      - destruct (IH _ _ E); auto. }
    apply X in HIn. destruct HIn as [|HIn]; auto. right.
    rewrite gather_combine in HIn by (rewrite !app_length; lia).
    apply (Permutation_in (l' := combine (lh ++ rh) (ls ++ rs))) in HIn.
    2:{ apply gather_perm. rewrite combine_length, !app_length, <- L1, <- L2, Nat.min_id, <- app_length. exact P. }
    clear - HIn L1. revert ls L1 HIn. induction lh as [|x l IH]; intros [|y ls] L1 HIn; simpl in *; try discriminate; auto.
    destruct HIn as [E|HIn]; auto.
    destruct (IH ls) as [?|?]; auto.
  Qed.
End CsgFacts.
