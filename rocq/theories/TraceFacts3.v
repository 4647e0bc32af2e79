(** * TraceFacts3: the nearest hit, and one interaction per hit *)
From Coq Require Import Reals List Bool ZArith Lia Lra Psatz Permutation.
Import ListNotations.
From Verif Require Import XR Arr Lin LinFacts Ops Prim Csg Surf World SpecWorld SpecOptics Tracer SpecTrace
  XRFacts CsgProps SpecTree TreeFacts TraceFacts TraceFacts2.
Open Scope R_scope.

(** ** argmin *)
(** a hit distance after the negative ones were replaced *)
Definition far (x : xr) : Prop := x = PInf \/ exists t, x = Fin t /\ 0 < t.
Lemma positive_far : forall x, far (positive_or_inf x).
Proof.
  intros x. unfold positive_or_inf, far. destruct (xltb (Fin 0) x) eqn:E; auto.
  destruct x; auto; try discriminate. right. exists r. split; auto. apply rltb_true; auto.
Qed.
Lemma far_total : forall a b, far a -> far b -> xltb a b = false -> xleb b a = true.
Proof.
  intros a b [->|(x & -> & A)] [->|(y & -> & B)]; simpl; auto; intros H; try discriminate.
  apply rltb_false in H. apply rleb_true. lra.
Qed.
Lemma xltb_trans_le : forall a b c, xltb a b = true -> xleb b c = true -> xltb a c = true.
Proof.
  intros a b c H K; destruct a, b, c; simpl in *; auto; try discriminate.
  apply rltb_true in H. apply rleb_true in K. apply rltb_true. lra.
Qed.
Lemma xleb_trans_lt : forall a b c, xleb a b = true -> xltb b c = true -> xltb a c = true.
Proof.
  intros a b c H K; destruct a, b, c; simpl in *; auto; try discriminate.
  apply rleb_true in H. apply rltb_true in K. apply rltb_true. lra.
Qed.
Lemma xltb_xleb : forall a b, xltb a b = true -> xleb a b = true.
Proof.
  intros a b H; destruct a, b; simpl in *; auto; try discriminate.
  apply rltb_true in H. apply rleb_true. lra.
Qed.
Lemma far_le_refl : forall a, far a -> xleb a a = true.
Proof. intros a [->|(x & -> & A)]; simpl; auto. apply rleb_true. lra. Qed.
Lemma xleb_trans3 : forall a b c, xleb a b = true -> xleb b c = true -> xleb a c = true.
Proof.
  intros a b c H K; destruct a, b, c; simpl in *; auto; try discriminate.
  apply rleb_true in H. apply rleb_true in K. apply rleb_true. lra.
Qed.

(** [m] at position [p] is the first least element of [ys] *)
Definition least_at (ys : list xr) (p : nat) (m : xr) : Prop :=
  nth_error ys p = Some m /\
  (forall j y, nth_error ys j = Some y -> xleb m y = true) /\
  (forall j y, (j < p)%nat -> nth_error ys j = Some y -> xltb m y = true).

Lemma argmin_from_least : forall xs seen best b,
  Forall far seen -> Forall far xs -> least_at seen b best ->
  exists m, least_at (seen ++ xs) (argmin_from best b (length seen) xs) m.
Proof.
  induction xs as [|x xs IH]; intros seen best b FS FX L; simpl.
  - rewrite app_nil_r. eauto.
  - inversion FX as [|? ? FX1 FX2]; subst. destruct L as (L1 & L2 & L3).
    assert (FB : far best). { rewrite Forall_forall in FS. apply FS. eapply nth_error_In; eauto. }
    assert (FS' : Forall far (seen ++ [x])) by (apply Forall_app; auto).
    assert (LEN : (b < length seen)%nat) by (apply nth_error_Some; congruence).
    replace (seen ++ x :: xs) with ((seen ++ [x]) ++ xs) by (rewrite <- app_assoc; auto).
    replace (S (length seen)) with (length (seen ++ [x])) by (rewrite app_length; simpl; lia).
    destruct (xltb x best) eqn:E; apply IH; auto.
    + repeat split.
      * rewrite nth_error_app2, Nat.sub_diag; auto.
      * intros j y J. destruct (Nat.lt_ge_cases j (length seen)).
        { rewrite nth_error_app1 in J by auto. apply xltb_xleb. eapply xltb_trans_le; eauto. }
        rewrite nth_error_app2 in J by auto. destruct (j - length seen)%nat as [|[|]] eqn:D; simpl in J; try discriminate.
        inversion J; subst. apply far_le_refl; auto.
      * intros j y J1 J. rewrite nth_error_app1 in J by auto. eapply xltb_trans_le; eauto.
    + repeat split.
      * rewrite nth_error_app1; auto.
      * intros j y J. destruct (Nat.lt_ge_cases j (length seen)).
        { rewrite nth_error_app1 in J by auto. eauto. }
        rewrite nth_error_app2 in J by auto. destruct (j - length seen)%nat as [|[|]] eqn:D; simpl in J; try discriminate.
        inversion J; subst. apply far_total; auto.
      * intros j y J1 J. rewrite nth_error_app1 in J by lia. eauto.
Qed.
Lemma argmin_least : forall xs, xs <> [] -> Forall far xs -> exists m, least_at xs (argmin xs) m.
Proof.
  intros [|x xs] N F; [congruence|]. inversion F; subst. simpl.
  apply (argmin_from_least xs [x] x 0); auto. repeat split; auto.
  - intros [|[|j]] y J; simpl in J; try discriminate. inversion J; subst. apply far_le_refl; auto.
  - intros j y J. lia.
Qed.

Section Nearest.
  Variable asort : list xr -> list nat.
  Hypothesis AS : argsort_ok asort.

  Lemma shape_lengths : forall s r,
    length (fst (shape_intersect asort s r)) = shape_rows s /\
    length (snd (shape_intersect asort s r)) = shape_rows s.
  Proof. intros s r. destruct (shape_columns asort AS s r) as (_ & A & B). auto. Qed.
  Lemma shape_rows_pos : forall s, (0 < shape_rows s)%nat.
  Proof. induction s; simpl; lia. Qed.

  (** one component *)
  Lemma shape_nearest : forall s r,
    let hs := map positive_or_inf (fst (shape_intersect asort s r)) in
    let ids := snd (shape_intersect asort s r) in
    let k := argmin hs in
    (nth k hs PInf = PInf /\
     forall j t, nth_error (fst (shape_intersect asort s r)) j = Some (Fin t) -> t <= 0) \/
    (exists t sid, nth k hs PInf = Fin t /\ nth k ids (-1)%Z = sid /\ 0 < t /\
       nth_error (fst (shape_intersect asort s r)) k = Some (Fin t) /\ nth_error ids k = Some sid /\
       forall j t', nth_error (fst (shape_intersect asort s r)) j = Some (Fin t') -> 0 < t' ->
         t < t' \/ (t = t' /\ (k <= j)%nat)).
  Proof.
    intros s r. destruct (shape_lengths s r) as [L1 L2]. pose proof (shape_rows_pos s) as P.
    set (xs := fst (shape_intersect asort s r)) in *. set (ids := snd (shape_intersect asort s r)) in *.
    intros hs ids' k. subst ids'.
    assert (F : Forall far hs).
    { apply Forall_forall. intros x X. apply in_map_iff in X. destruct X as (y & <- & _). apply positive_far. }
    assert (NE : hs <> []).
    { intros E. assert (length hs = O) by (rewrite E; auto). unfold hs in H. rewrite map_length in H. lia. }
    destruct (argmin_least hs NE F) as (m & M1 & M2 & M3). fold k in M1, M3.
    assert (HJ : forall j t, nth_error xs j = Some (Fin t) -> 0 < t -> nth_error hs j = Some (Fin t)).
    { intros j t J T. unfold hs. rewrite nth_error_map, J. simpl. unfold positive_or_inf. simpl.
      assert (X : rltb 0 t = true) by (apply rltb_true; auto). rewrite X. auto. }
    rewrite (nth_error_nth hs k PInf M1).
    assert (FM : far m) by (rewrite Forall_forall in F; apply F; eapply nth_error_In; eauto).
    destruct FM as [->|(t & -> & T)].
    - left. split; auto. intros j t J. destruct (Rle_dec t 0); auto. exfalso.
      assert (0 < t) by lra. pose proof (M2 _ _ (HJ j t J H)). discriminate.
    - right. assert (KX : nth_error xs k = Some (Fin t)).
      { unfold hs in M1. rewrite nth_error_map in M1. destruct (nth_error xs k) as [x|]; [|discriminate].
        simpl in M1. inversion M1 as [E]. unfold positive_or_inf in E. destruct (xltb (Fin 0) x); [congruence|discriminate]. }
      assert (KI : (k < length ids)%nat). { rewrite L2, <- L1. apply nth_error_Some. congruence. }
      destruct (nth_error ids k) as [sid|] eqn:I; [|apply nth_error_None in I; lia].
      exists t, sid. split; auto. split. { apply nth_error_nth; auto. } repeat split; auto.
      intros j t' J T'. pose proof (HJ j t' J T') as J'. pose proof (M2 _ _ J') as Q. simpl in Q. apply rleb_true in Q.
      destruct (Nat.lt_ge_cases j k) as [A|A]; [|lra || auto].
      + left. pose proof (M3 _ _ A J') as Q'. simpl in Q'. apply rltb_true in Q'. auto.
      + destruct (Req_dec t t'); [right; auto|left; lra].
  Qed.

  Lemma propagate_snoc : forall comps s c,
    propagate asort (comps ++ [s]) c = propagate_shape asort (c_ray c) (propagate asort comps c) s.
  Proof. intros. unfold propagate. rewrite fold_left_app. reflexivity. Qed.

  Lemma reports_snoc : forall comps s r i k t sid, reports asort (comps ++ [s]) r i k t sid <->
    reports asort comps r i k t sid \/
    (i = length comps /\ nth_error (fst (shape_intersect asort s r)) k = Some (Fin t) /\
     nth_error (snd (shape_intersect asort s r)) k = Some sid /\ 0 < t).
  Proof.
    intros comps s r i k t sid. unfold reports. split.
    - intros (x & N & A). destruct (Nat.lt_ge_cases i (length comps)) as [L|L].
      + rewrite nth_error_app1 in N by auto. left. eauto.
      + rewrite nth_error_app2 in N by auto. right.
        destruct (i - length comps)%nat as [|[|]] eqn:D; simpl in N; try discriminate. inversion N; subst. split; [lia|auto].
    - intros [(x & N & A)|(-> & A)].
      + exists x. split; auto. rewrite nth_error_app1; auto. apply nth_error_Some. congruence.
      + exists s. split; auto. rewrite nth_error_app2, Nat.sub_diag; auto.
  Qed.
  Lemma reports_lt : forall comps r i k t sid, reports asort comps r i k t sid -> (i < length comps)%nat.
  Proof. intros comps r i k t sid (s & N & _). apply nth_error_Some. congruence. Qed.

  Theorem propagate_first : forall comps c,
    (propagate asort comps c = (PInf, (-1)%Z) /\ no_hit asort comps (c_ray c)) \/
    (exists t sid, propagate asort comps c = (Fin t, sid) /\ first_hit asort comps (c_ray c) t sid).
  Proof.
    intros comps c. set (r := c_ray c). induction comps as [|s comps IH] using rev_ind.
    - left. split; auto. intros i k t sid (x & N & _). destruct i; discriminate.
    - rewrite propagate_snoc. fold r. unfold propagate_shape.
      pose proof (shape_nearest s r) as SN. cbv zeta in SN.
      destruct (shape_intersect asort s r) as [hs ids] eqn:SI. cbn [fst snd] in SN.
      destruct SN as [(-> & NP)|(t & sid & -> & -> & T & HK & IK & MIN)].
      + replace (xltb PInf (fst (propagate asort comps c))) with false by (destruct (fst (propagate asort comps c)); auto).
        destruct IH as [(-> & NH)|(t & sid & -> & i & k & R1 & R2)].
        * left. split; auto. intros i k t sid R. apply reports_snoc in R. rewrite SI in R. cbn [fst snd] in R.
          destruct R as [R|(_ & R & _ & T)]; [exact (NH _ _ _ _ R)|]. specialize (NP _ _ R). lra.
        * right. exists t, sid. split; auto. exists i, k. split; [apply reports_snoc; auto|].
          intros i' k' t' sid' R. apply reports_snoc in R. rewrite SI in R. cbn [fst snd] in R.
          destruct R as [R|(_ & R & _ & T)]; [eauto|]. specialize (NP _ _ R). lra.
      + right. destruct IH as [(-> & NH)|(t0 & sid0 & -> & i & k & R1 & R2)].
        * cbn [fst xltb]. exists t, sid. split; auto. exists (length comps), (argmin (map positive_or_inf hs)).
          split. { apply reports_snoc. right. rewrite SI. cbn [fst snd]. auto. }
          intros i' k' t' sid' R. apply reports_snoc in R. rewrite SI in R. cbn [fst snd] in R.
          destruct R as [R|(-> & R & _ & T')]; [elim (NH _ _ _ _ R)|]. destruct (MIN _ _ R T') as [?|[? ?]]; auto 6.
        * cbn [fst xltb]. destruct (rltb t t0) eqn:LT.
          { apply rltb_true in LT. exists t, sid. split; auto. exists (length comps), (argmin (map positive_or_inf hs)).
            split. { apply reports_snoc. right. rewrite SI. cbn [fst snd]. auto. }
            intros i' k' t' sid' R. apply reports_snoc in R. rewrite SI in R. cbn [fst snd] in R.
            destruct R as [R|(-> & R & _ & T')].
            - left. destruct (R2 _ _ _ _ R) as [Q|[Q _]]; lra.
            - destruct (MIN _ _ R T') as [?|[? ?]]; auto 6. }
          { apply rltb_false in LT. exists t0, sid0. split; auto. exists i, k. split; [apply reports_snoc; auto|].
            intros i' k' t' sid' R. apply reports_snoc in R. rewrite SI in R. cbn [fst snd] in R.
            destruct R as [R|(-> & R & _ & T')]; [eauto|].
            assert (t <= t') by (destruct (MIN _ _ R T') as [Q|[Q _]]; lra).
            destruct (Req_dec t0 t') as [E|E]; [right; split; auto; left|left; lra].
            eapply reports_lt; eauto. }
  Qed.
  Lemma first_hit_pos : forall comps r t sid, first_hit asort comps r t sid -> 0 < t.
  Proof. intros comps r t sid (i & k & (s & _ & _ & _ & P) & _). auto. Qed.
  Lemma first_hit_surface : forall comps r t sid, first_hit asort comps r t sid ->
    exists s f, In s comps /\ In f (surface_ids s) /\ s_id f = sid /\ In (Fin t) (surf_hits f r).
  Proof.
    intros comps r t sid (i & k & (s & N & A & B & P) & _). exists s.
    assert (X : In (Fin t, sid) (combine (fst (shape_intersect asort s r)) (snd (shape_intersect asort s r)))).
    { revert A B. generalize (fst (shape_intersect asort s r)), (snd (shape_intersect asort s r)).
      induction k as [|k IH]; intros [|x xs] [|y ys]; simpl; try discriminate.
      - intros A B. inversion A; inversion B; auto.
      - intros A B. right. apply IH; auto. }
    destruct (shape_leaf asort AS s r _ _ X) as [E|(f & F & I & H)]; [discriminate|].
    exists f. repeat split; auto. eapply nth_error_In; eauto.
  Qed.
End Nearest.
