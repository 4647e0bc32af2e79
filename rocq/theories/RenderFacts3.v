(** * RenderFacts3: facts about the edge image *)
From Coq Require Import List Bool ZArith Lia Arith.
Import ListNotations.
From Verif Require Import Render SpecRender.

(** ** Rows *)
Lemma rows_of_length : forall A h w (l : list A), length (rows_of h w l) = h.
Proof. induction h; intros; simpl; auto. Qed.
Lemma nth_error_firstn : forall A n (l : list A) j, j < n -> nth_error (firstn n l) j = nth_error l j.
Proof. induction n; intros l j H; [lia|]. destruct l; simpl; auto. destruct j; simpl; auto. apply IHn. lia. Qed.
Lemma nth_error_skipn : forall A n (l : list A) j, nth_error (skipn n l) j = nth_error l (n + j).
Proof. induction n; intros l j; simpl; auto. destruct l; auto. destruct j; auto. Qed.
Lemma rows_of_nth : forall A h w (l : list A) i, length l = h * w -> i < h ->
  exists row, nth_error (rows_of h w l) i = Some row /\ length row = w /\
    forall j, j < w -> nth_error row j = nth_error l (i * w + j).
Proof.
  induction h; intros w l i L I; [lia|]. simpl in L. destruct i as [|i]; simpl.
  - exists (firstn w l). split; auto. split; [rewrite firstn_length; lia|]. intros. apply nth_error_firstn; auto.
  - destruct (IHh w (skipn w l) i) as (row & R & LR & N); [rewrite skipn_length; lia|lia|].
    exists row. split; auto. split; auto. intros j J. rewrite (N j J), nth_error_skipn. f_equal. lia.
Qed.

(** ** Differences *)
Lemma nth_error_combine : forall A B (l : list A) (m : list B) i a b,
  nth_error l i = Some a -> nth_error m i = Some b -> nth_error (combine l m) i = Some (a, b).
Proof. induction l; intros m i x y X Y; [destruct i; discriminate|]. destruct m; [destruct i; discriminate|]. destruct i; simpl in *; [congruence|auto]. Qed.
Lemma nth_error_repeat : forall A (x : A) n i, i < n -> nth_error (repeat x n) i = Some x.
Proof. induction n; intros i H; [lia|]. destruct i; simpl; auto. apply IHn. lia. Qed.

Section Image.
  Variables h w : nat.
  Variable ids : list Z.
  Hypothesis L : length ids = h * w.
  Notation at_ := (id_at h w ids).
  Notation m := (rows_of h w ids).

  Lemma id_at_in : forall i j, i < h -> j < w -> nth_error ids (i * w + j) = Some (at_ (Z.of_nat i) (Z.of_nat j)).
  Proof.
    intros i j I J. unfold id_at.
    destruct (Z.leb_spec 0 (Z.of_nat i)); [|lia]. destruct (Z.ltb_spec (Z.of_nat i) (Z.of_nat h)); [|lia].
    destruct (Z.leb_spec 0 (Z.of_nat j)); [|lia]. destruct (Z.ltb_spec (Z.of_nat j) (Z.of_nat w)); [|lia].
    cbn [andb]. rewrite !Nat2Z.id. apply nth_error_nth'. rewrite L. nia.
  Qed.
  Lemma id_at_left : forall i, at_ i (-1) = (-1)%Z.
  Proof. intros. unfold id_at. destruct (0 <=? i)%Z, (i <? Z.of_nat h)%Z; auto. Qed.
  Lemma id_at_above : forall j, at_ (-1) j = (-1)%Z.
  Proof. intros. unfold id_at. auto. Qed.

  Lemma h_diffs_nth : forall i j, i < h -> j < w ->
    exists row, nth_error (h_diffs m) i = Some row /\ length row = w /\
    nth_error row j = Some (Z.abs (at_ (Z.of_nat i) (Z.of_nat j) - at_ (Z.of_nat i) (Z.of_nat j - 1))).
  Proof.
    intros i j I J. destruct (rows_of_nth _ h w ids i L I) as (row & R & LR & N).
    exists (map Z.abs (diff_prepend (-1) row)). unfold h_diffs. rewrite nth_error_map, R. split; auto. split.
    { unfold diff_prepend. rewrite !map_length, combine_length. cbn [length]. lia. }
    unfold diff_prepend. rewrite !nth_error_map.
    assert (E : nth_error (combine ((-1)%Z :: row) row) j =
      Some (at_ (Z.of_nat i) (Z.of_nat j - 1), at_ (Z.of_nat i) (Z.of_nat j))).
    { apply nth_error_combine.
      - destruct j as [|j]; cbn [nth_error].
        + change (Z.of_nat 0 - 1)%Z with (-1)%Z. rewrite id_at_left. auto.
        + rewrite (N j) by lia. rewrite id_at_in by lia. replace (Z.of_nat (S j) - 1)%Z with (Z.of_nat j) by lia. auto.
      - rewrite (N j) by lia. apply id_at_in; auto. }
    rewrite E. auto.
  Qed.
  Lemma v_diffs_nth : forall i j, i < h -> j < w ->
    exists row, nth_error (v_diffs w m) i = Some row /\ length row = w /\
    nth_error row j = Some (Z.abs (at_ (Z.of_nat i) (Z.of_nat j) - at_ (Z.of_nat i - 1) (Z.of_nat j))).
  Proof.
    intros i j I J. destruct (rows_of_nth _ h w ids i L I) as (row & R & LR & N).
    assert (U : exists up, nth_error (repeat (-1)%Z w :: m) i = Some up /\ length up = w /\ nth_error up j = Some (at_ (Z.of_nat i - 1) (Z.of_nat j))).
    { destruct i as [|i].
      - exists (repeat (-1)%Z w). split; auto. rewrite repeat_length, nth_error_repeat by auto. split; auto.
      - destruct (rows_of_nth _ h w ids i L ltac:(lia)) as (up & RU & LU & NU). exists up. split; auto. split; auto.
        rewrite (NU j J). rewrite id_at_in by lia. replace (Z.of_nat (S i) - 1)%Z with (Z.of_nat i) by lia. auto. }
    destruct U as (up & RU & LU & NU).
    unfold v_diffs. rewrite nth_error_map, (nth_error_combine _ _ _ _ _ _ _ RU R). cbn [option_map fst snd].
    eexists. split; [reflexivity|]. split; [rewrite map_length, combine_length; lia|].
    rewrite nth_error_map, (nth_error_combine _ _ up row j _ _ NU (eq_trans (N j J) (id_at_in i j I J))). auto.
  Qed.

  Definition edges : list (list bool) := map (map (fun d => negb (d =? 0)%Z)) (add_rows (h_diffs m) (v_diffs w m)).
  Lemma edges_length : length edges = h.
  Proof.
    unfold edges, add_rows, h_diffs, v_diffs. rewrite !map_length, combine_length, !map_length, combine_length.
    cbn [length]. rewrite rows_of_length. lia.
  Qed.
  Lemma edges_nth : forall i j, i < h -> j < w ->
    exists row, nth_error edges i = Some row /\ length row = w /\
    (nth_error row j = Some true <-> border h w ids (Z.of_nat i) (Z.of_nat j)) /\ (exists b, nth_error row j = Some b).
  Proof.
    intros i j I J. destruct (h_diffs_nth i j I J) as (r1 & R1 & L1 & N1). destruct (v_diffs_nth i j I J) as (r2 & R2 & L2 & N2).
    unfold edges, add_rows. rewrite !nth_error_map, (nth_error_combine _ _ _ _ _ _ _ R1 R2). cbn [option_map fst snd].
    eexists. split; [reflexivity|]. split; [rewrite !map_length, combine_length; lia|].
    rewrite !nth_error_map, (nth_error_combine _ _ _ _ _ _ _ N1 N2). cbn [option_map fst snd]. split; [|eauto].
    unfold border. split.
    - intros E. inversion E as [E']. apply negb_true_iff, Z.eqb_neq in E'. lia.
    - intros (_ & _ & B). f_equal. apply negb_true_iff, Z.eqb_neq. lia.
  Qed.
  Lemma edges_at : forall i j, at2 edges i j = true <-> i < h /\ j < w /\ border h w ids (Z.of_nat i) (Z.of_nat j).
  Proof.
    intros i j. unfold at2. split.
    - intros E. destruct (Nat.lt_ge_cases i h) as [I|I].
      + destruct (Nat.lt_ge_cases j w) as [J|J].
        * destruct (edges_nth i j I J) as (row & R & LR & B & b & BB). rewrite (nth_error_nth _ _ _ R) in E.
          rewrite (nth_error_nth _ _ _ BB) in E. subst. split; auto. split; auto. apply B. auto.
        * destruct (Nat.eq_dec w 0) as [W|W].
          { exfalso. assert (X : forall l, In l edges -> l = []).
            { intros l X. unfold edges, add_rows in X. apply in_map_iff in X. destruct X as (x & <- & X).
              apply in_map_iff in X. destruct X as ([a b] & <- & X). apply in_combine_l in X. unfold h_diffs in X.
              apply in_map_iff in X. destruct X as (r & <- & X). cbn [fst].
              assert (R0 : forall hh l r, In r (rows_of hh 0 l) -> r = @nil Z).
              { induction hh; simpl; intros l r0 [] || intros l r0 [<-|Y]; eauto. }
              rewrite W in X. rewrite (R0 _ _ _ X). auto. }
            assert (Q : nth i edges [] = []).
            { destruct (nth_in_or_default i edges []) as [Q|Q]; auto. }
            rewrite Q in E. destruct j; discriminate. }
          { destruct (edges_nth i 0 I ltac:(lia)) as (row & R & LR & _). rewrite (nth_error_nth _ _ _ R) in E.
            rewrite nth_overflow in E by lia. discriminate. }
      + rewrite (nth_overflow edges) in E by (rewrite edges_length; lia). destruct j; discriminate.
    - intros (I & J & B). destruct (edges_nth i j I J) as (row & R & LR & BB & _). apply BB in B.
      rewrite (nth_error_nth _ _ _ R). apply (nth_error_nth _ _ _ B).
  Qed.
End Image.

(** ** Dilation *)
Definition close1 (a b : nat) : Prop := a <= b + 1 /\ b <= a + 1.
Lemma dilate_at : forall h w m i j, at2 (dilate h w m) i j = true <->
  i < h /\ j < w /\ exists i' j', close1 i i' /\ close1 j j' /\ at2 m i' j' = true.
Proof.
  intros h w m i j. unfold at2 at 1, dilate.
  destruct (Nat.lt_ge_cases i h) as [I|I].
  - destruct (Nat.lt_ge_cases j w) as [J|J].
    + rewrite (nth_indep _ [] (map (fun j0 => existsb (fun i' => existsb (fun j' => at2 m i' j') (seq (Nat.pred j0) (j0 + 2 - Nat.pred j0))) (seq (Nat.pred 0) (0 + 2 - Nat.pred 0))) (seq 0 w)))
        by (rewrite map_length, seq_length; auto).
      rewrite (map_nth (fun i => map (fun j0 => existsb (fun i' => existsb (fun j' => at2 m i' j') (seq (Nat.pred j0) (j0 + 2 - Nat.pred j0))) (seq (Nat.pred i) (i + 2 - Nat.pred i))) (seq 0 w)) (seq 0 h) 0 i).
      rewrite seq_nth by auto. cbn [plus].
      rewrite (nth_indep _ false ((fun j0 => existsb (fun i' => existsb (fun j' => at2 m i' j') (seq (Nat.pred j0) (j0 + 2 - Nat.pred j0))) (seq (Nat.pred i) (i + 2 - Nat.pred i))) 0))
        by (rewrite map_length, seq_length; auto).
      rewrite (map_nth (fun j0 => existsb (fun i' => existsb (fun j' => at2 m i' j') (seq (Nat.pred j0) (j0 + 2 - Nat.pred j0))) (seq (Nat.pred i) (i + 2 - Nat.pred i))) (seq 0 w) 0 j).
      rewrite seq_nth by auto. cbn [plus]. rewrite existsb_exists. unfold close1. split.
      * intros (i' & A & B). apply existsb_exists in B. destruct B as (j' & B & E). apply in_seq in A. apply in_seq in B.
        split; auto. split; auto. exists i', j'. repeat split; auto; lia.
      * intros (_ & _ & i' & j' & A & B & E). exists i'. split; [apply in_seq; lia|]. apply existsb_exists. exists j'. split; [apply in_seq; lia|auto].
    + split; [|intros (_ & X & _); lia]. intros E. exfalso.
      destruct (nth_in_or_default i (map (fun i => map (fun j0 => existsb (fun i' => existsb (fun j' => at2 m i' j') (seq (Nat.pred j0) (j0 + 2 - Nat.pred j0))) (seq (Nat.pred i) (i + 2 - Nat.pred i))) (seq 0 w)) (seq 0 h)) []) as [Q|Q].
      * apply in_map_iff in Q. destruct Q as (x & Q & _). rewrite <- Q in E. rewrite nth_overflow in E by (rewrite map_length, seq_length; lia). discriminate.
      * rewrite Q in E. destruct j; discriminate.
  - split; [|intros (X & _); lia]. intros E. rewrite (nth_overflow _ []) in E by (rewrite map_length, seq_length; lia). destruct j; discriminate.
Qed.

Definition close (k a b : nat) : Prop := a <= b + k /\ b <= a + k.
Definition towards (a b : nat) : nat := if a <? b then S a else if b <? a then Nat.pred a else a.
Lemma towards_spec : forall k a b, close (S k) a b -> close1 a (towards a b) /\ close k (towards a b) b /\ forall n, a < n -> b < n -> towards a b < n.
Proof.
  unfold close, close1, towards. intros k a b H. destruct (Nat.ltb_spec a b); [|destruct (Nat.ltb_spec b a)]; repeat split; intros; lia.
Qed.
Lemma iter_dilate_at : forall h w m, (forall i j, at2 m i j = true -> i < h /\ j < w) -> forall k i j, i < h -> j < w ->
  (at2 (Nat.iter k (dilate h w) m) i j = true <-> exists i' j', close k i i' /\ close k j j' /\ at2 m i' j' = true).
Proof.
  intros h w m IN. induction k as [|k IH]; intros i j I J.
  - cbn [Nat.iter nat_rect]. unfold close. split.
    + intros E. exists i, j. repeat split; auto; lia.
    + intros (i' & j' & A & B & E). assert (i' = i) by lia. assert (j' = j) by lia. subst. auto.
  - change (Nat.iter (S k) (dilate h w) m) with (dilate h w (Nat.iter k (dilate h w) m)). rewrite dilate_at. split.
    + intros (_ & _ & i1 & j1 & A & B & E).
      assert (X : i1 < h /\ j1 < w).
      { destruct k; [apply IN; auto|]. change (Nat.iter (S k) (dilate h w) m) with (dilate h w (Nat.iter k (dilate h w) m)) in E. apply dilate_at in E. tauto. }
      destruct X as [X Y]. apply (IH i1 j1 X Y) in E. destruct E as (i' & j' & A' & B' & E).
      exists i', j'. unfold close, close1 in *. repeat split; auto; lia.
    + intros (i' & j' & A & B & E). destruct (IN _ _ E) as [X Y].
      destruct (towards_spec _ _ _ A) as (A1 & A2 & A3), (towards_spec _ _ _ B) as (B1 & B2 & B3).
      split; auto. split; auto. exists (towards i i'), (towards j j'). split; auto. split; auto.
      apply IH; auto. exists i', j'. auto.
Qed.

Lemma edge_iterations_width : forall h w, line_width h w (edge_iterations h w).
Proof.
  intros h w. unfold line_width, edge_iterations. set (n := Nat.max h w).
  pose proof (Nat.div_mod n 300 ltac:(lia)). pose proof (Nat.mod_upper_bound n 300 ltac:(lia)).
  destruct (Nat.max_spec 1 (n / 300)) as [[A ->]|[A ->]]; lia.
Qed.
Theorem edge_mask_border : forall h w ids i j, length ids = h * w -> i < h -> j < w ->
  (at2 (edge_mask h w ids) i j = true <-> near_border (edge_iterations h w) h w ids i j).
Proof.
  intros h w ids i j L I J. unfold edge_mask. fold (edges h w ids). rewrite iter_dilate_at; auto.
  - unfold near_border, close. split.
    + intros (i' & j' & A & B & E). apply edges_at in E; auto. destruct E as (_ & _ & E). exists (Z.of_nat i'), (Z.of_nat j').
      split; auto. lia.
    + intros (i' & j' & E & A & B). exists (Z.to_nat i'), (Z.to_nat j'). destruct E as (E1 & E2 & E3). split; [lia|]. split; [lia|].
      apply edges_at; auto. split; [lia|]. split; [lia|]. rewrite !Z2Nat.id by lia. unfold border. auto.
  - intros a b E. apply edges_at in E; tauto.
Qed.
Lemma edge_mask_size : forall h w ids, length (edge_mask h w ids) = h /\ (forall row, In row (edge_mask h w ids) -> length row = w).
Proof.
  intros h w ids. unfold edge_mask. destruct (edge_iterations_width h w) as (K & _). destruct (edge_iterations h w) as [|k]; [lia|].
  change (Nat.iter (S k) (dilate h w) ?m) with (dilate h w (Nat.iter k (dilate h w) m)). unfold dilate at 1 3.
  rewrite map_length, seq_length. split; auto. intros row R. apply in_map_iff in R. destruct R as (x & <- & _). rewrite map_length, seq_length. auto.
Qed.
