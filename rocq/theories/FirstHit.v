(** * FirstHit: the first surface a ray meets on a component of one or two surfaces *)
From Coq Require Import Reals Lra Lia List Bool ZArith Permutation Sorted.
Import ListNotations.
From Verif Require Import XR XRFacts Arr ArrFacts Lin LinFacts Prim Csg SpecCsg CsgFacts Surf SpecGeom SpecTree CsgProps TreeFacts
  Tracer SpecTrace TraceFacts3.
Open Scope R_scope.

Lemma before_fin' : forall x t, before xsle (Fin x) (Fin t) = true <-> x < t.
Proof.
  intros. unfold before. simpl. destruct (rleb t x) eqn:E; [apply rleb_true in E|apply rleb_false in E]; simpl; split; intro; try discriminate; try lra; auto.
Qed.
Lemma below_step : forall l v t t', (forall x, In x l -> before xsle x t' = true -> before xsle x t = true \/ x = v) ->
  (below xsle t' l <= below xsle t l + count_occ xr_eq_dec l v)%nat.
Proof.
  unfold below. induction l as [|x l IH]; intros v t t' H; simpl; auto.
  specialize (IH v t t' (fun y I => H y (or_intror I))). specialize (H x (or_introl eq_refl)).
  destruct (before xsle x t'), (before xsle x t), (xr_eq_dec x v); simpl; try lia. destruct (H eq_refl); [discriminate|contradiction].
Qed.
Lemma below_zero : forall l t x, below xsle t l = O -> In x l -> before xsle x t = false.
Proof.
  unfold below. induction l as [|y l IH]; intros t x H I; [destruct I|]. simpl in H. destruct (before xsle y t) eqn:E; [discriminate|].
  destruct I as [->|I]; auto.
Qed.
Lemma combine_fst_in {X Y} : forall (a : list X) (b : list Y) x, length a = length b -> In x a -> exists y, In (x, y) (combine a b).
Proof.
  induction a as [|z a IH]; intros [|y b] x L I; simpl in *; try discriminate; [destruct I|]. destruct I as [->|I]; [eauto|].
  destruct (IH b x ltac:(lia) I) as (y' & J). eauto.
Qed.

Section First.
  Variable asort : list xr -> list nat.
  Hypothesis AS : argsort_ok asort.

  Lemma combine_count : forall op lh ls rh rs v, v <> PInf ->
    (count_occ xr_eq_dec (fst (csg_combine PInf asort op lh ls rh rs)) v <= count_occ xr_eq_dec lh v + count_occ xr_eq_dec rh v)%nat.
  Proof.
    intros op lh ls rh rs v N. rewrite (count_occ_perm xr_eq_dec _ _ _ (csg_combine_hits_perm xsle PInf asort AS op lh ls rh rs)).
    pose proof (array_csg_count xsle PInf asort AS xr_eq_dec op lh rh v N) as C. unfold array_csg in C.
    rewrite (count_occ_perm xr_eq_dec _ _ _ (sort_perm xsle _)) in C. exact C.
  Qed.
  Lemma sorted2 : forall a b, a <= b -> StronglySorted (fun a b => xsle a b = true) [Fin a; Fin b].
  Proof. intros. apply asc_sorted, asc2; auto. Qed.

  (** Subtracting the interval [p, q] from [a, b]: seen from 0, the first end is q. *)
  Lemma diff_first : forall a b p q i j, a < q -> q < b -> p < q -> 0 < q -> (p <= 0 \/ p < a) ->
    let out := csg_combine PInf asort DIFFERENCE [Fin a; Fin b] [i; i] [Fin p; Fin q] [j; j] in
    In (Fin q) (fst out) /\ (forall t, In (Fin t) (fst out) -> 0 < t -> q <= t) /\
    (forall sid, In (Fin q, sid) (combine (fst out) (snd out)) -> sid = j).
  Proof.
    intros a b p q i j AQ QB PQ Q0 PA out.
    assert (EN : forall x, In x (fst out) -> x = PInf \/ x = Fin a \/ x = Fin b \/ x = Fin p \/ x = Fin q).
    { intros x I. destruct (csg_combine_length xsle PInf asort AS DIFFERENCE [Fin a; Fin b] [i; i] [Fin p; Fin q] [j; j]) as [L1 L2].
      destruct (combine_fst_in (fst out) (snd out) x ltac:(unfold out; congruence) I) as (y & J).
      destruct (csg_combine_pair xsle PInf asort AS DIFFERENCE [Fin a; Fin b] [i; i] [Fin p; Fin q] [j; j] _ _ eq_refl eq_refl J) as [->|[K|K]]; auto; simpl in K;
        destruct K as [K|[K|[]]]; injection K as <- <-; auto. }
    assert (INS : forall t, inside_at xsle (Fin t) (fst out) = bool_op DIFFERENCE (inside_at xsle (Fin t) [Fin a; Fin b]) (inside_at xsle (Fin t) [Fin p; Fin q])).
    { intro t. apply (csg_combine_inside xsle PInf asort xsle_trans AS); auto; apply sorted2; lra. }
    assert (BF : forall x t, x < t -> before xsle (Fin x) (Fin t) = true) by (intros; apply before_fin'; auto).
    assert (BN : forall x t, t <= x -> before xsle (Fin x) (Fin t) = false).
    { intros x t L. destruct (before xsle (Fin x) (Fin t)) eqn:E; auto. apply before_fin' in E. lra. }
    assert (EV : inside_at xsle (Fin q) (fst out) = false).
    { rewrite INS. unfold inside_at, below. simpl. rewrite (BF a q), (BN b q), (BF p q), (BN q q) by lra. reflexivity. }
    assert (OD : inside_at xsle (Fin b) (fst out) = true).
    { rewrite INS. unfold inside_at, below. simpl. rewrite (BF a b), (BN b b), (BF p b), (BF q b) by lra. reflexivity. }
    assert (NP : forall x, x = PInf -> forall t, before xsle x (Fin t) = false) by (intros x -> t; reflexivity).
    split; [|split].
    - destruct (in_dec xr_eq_dec (Fin q) (fst out)) as [I|N]; auto. exfalso.
      assert (E : below xsle (Fin b) (fst out) = below xsle (Fin q) (fst out)); [|unfold inside_at in *; congruence].
      unfold below. f_equal. apply filter_ext_in. intros x I. destruct (EN x I) as [->|[->|[->|[->| ->]]]]; auto.
      + rewrite !BF; auto; lra.
      + rewrite !BN; auto; lra.
      + rewrite !BF; auto; lra.
      + contradiction.
    - intros t I T. destruct (EN _ I) as [E|[E|[E|[E|E]]]]; try discriminate; injection E as ->; try lra.
      + (* the hit at a: then p < a *)
        destruct (Rlt_dec p a) as [PL|]; [|lra]. exfalso.
        assert (CA : (count_occ xr_eq_dec (fst out) (Fin a) <= 1)%nat).
        { unfold out. rewrite combine_count by discriminate. cbn [count_occ]. destruct (xr_eq_dec (Fin a) (Fin a)); [|congruence].
          repeat match goal with |- context[xr_eq_dec (Fin ?u) (Fin ?v)] => destruct (xr_eq_dec (Fin u) (Fin v)) as [X|]; [inversion X; lra|] end. auto. }
        assert (CP : (count_occ xr_eq_dec (fst out) (Fin p) <= 1)%nat).
        { unfold out. rewrite combine_count by discriminate. cbn [count_occ]. destruct (xr_eq_dec (Fin p) (Fin p)); [|congruence].
          repeat match goal with |- context[xr_eq_dec (Fin ?u) (Fin ?v)] => destruct (xr_eq_dec (Fin u) (Fin v)) as [X|]; [inversion X; lra|] end. auto. }
        assert (B0 : below xsle (Fin p) (fst out) = O).
        { apply below_none. apply Forall_forall. intros x J. destruct (EN x J) as [->|[->|[->|[->| ->]]]]; auto; apply BN; lra. }
        assert (B1 : (below xsle (Fin a) (fst out) <= below xsle (Fin p) (fst out) + count_occ xr_eq_dec (fst out) (Fin p))%nat).
        { apply below_step. intros x J. destruct (EN x J) as [->|[->|[->|[->| ->]]]]; auto; intro E; try (rewrite BN in E by lra; discriminate). }
        assert (Z1 : below xsle (Fin a) (fst out) = O).
        { assert (X : inside_at xsle (Fin a) (fst out) = false).
          { rewrite INS. unfold inside_at at 1, below. simpl. rewrite (BN a a), (BN b a) by lra. reflexivity. }
          unfold inside_at in X. destruct (below xsle (Fin a) (fst out)) as [|[|k]]; auto; [discriminate|lia]. }
        assert (B2 : (below xsle (Fin q) (fst out) <= below xsle (Fin a) (fst out) + count_occ xr_eq_dec (fst out) (Fin a))%nat).
        { apply below_step. intros x J. destruct (EN x J) as [->|[->|[->|[->| ->]]]]; auto; intro E; try (rewrite BN in E by lra; discriminate). }
        assert (Z2 : below xsle (Fin q) (fst out) = O).
        { unfold inside_at in EV. destruct (below xsle (Fin q) (fst out)) as [|[|k]]; auto; [discriminate|lia]. }
        pose proof (below_zero _ _ _ Z2 I) as F. rewrite BF in F by lra. discriminate.
      + destruct PA as [PA|PA]; [lra|]. exfalso.
        assert (CP : (count_occ xr_eq_dec (fst out) (Fin p) <= 1)%nat).
        { unfold out. rewrite combine_count by discriminate. cbn [count_occ]. destruct (xr_eq_dec (Fin p) (Fin p)); [|congruence].
          repeat match goal with |- context[xr_eq_dec (Fin ?u) (Fin ?v)] => destruct (xr_eq_dec (Fin u) (Fin v)) as [X|]; [inversion X; lra|] end. auto. }
        assert (B0 : below xsle (Fin p) (fst out) = O).
        { apply below_none. apply Forall_forall. intros x J. destruct (EN x J) as [->|[->|[->|[->| ->]]]]; auto; apply BN; lra. }
        assert (B1 : (below xsle (Fin a) (fst out) <= below xsle (Fin p) (fst out) + count_occ xr_eq_dec (fst out) (Fin p))%nat).
        { apply below_step. intros x J. destruct (EN x J) as [->|[->|[->|[->| ->]]]]; auto; intro E; try (rewrite BN in E by lra; discriminate). }
        assert (Z1 : below xsle (Fin a) (fst out) = O).
        { assert (X : inside_at xsle (Fin a) (fst out) = false).
          { rewrite INS. unfold inside_at at 1, below. simpl. rewrite (BN a a), (BN b a) by lra. reflexivity. }
          unfold inside_at in X. destruct (below xsle (Fin a) (fst out)) as [|[|k]]; auto; [discriminate|lia]. }
        pose proof (below_zero _ _ _ Z1 I) as F. rewrite BF in F by lra. discriminate.
    - intros sid J. destruct (csg_combine_pair xsle PInf asort AS DIFFERENCE [Fin a; Fin b] [i; i] [Fin p; Fin q] [j; j] _ _ eq_refl eq_refl J) as [E|[K|K]]; [discriminate| |];
        simpl in K; destruct K as [K|[K|[]]]; injection K; intros; subst; auto; lra.
  Qed.

  (** From the answer of a component to the first hit. *)
  Lemma propagate_one : forall s c q sid, 0 < q ->
    In (Fin q) (fst (shape_intersect asort s (c_ray c))) ->
    (forall t, In (Fin t) (fst (shape_intersect asort s (c_ray c))) -> 0 < t -> q <= t) ->
    (forall i, In (Fin q, i) (combine (fst (shape_intersect asort s (c_ray c))) (snd (shape_intersect asort s (c_ray c)))) -> i = sid) ->
    propagate asort [s] c = (Fin q, sid).
  Proof.
    intros s c q sid Q I M U. destruct (shape_columns asort AS s (c_ray c)) as (_ & L1 & L2).
    destruct (In_nth_error _ _ I) as (k & K).
    assert (exists j, nth_error (snd (shape_intersect asort s (c_ray c))) k = Some j) as (j & J).
    { destruct (nth_error (snd (shape_intersect asort s (c_ray c))) k) as [j|] eqn:E; [eauto|].
      apply nth_error_None in E. assert (k < length (fst (shape_intersect asort s (c_ray c))))%nat by (apply nth_error_Some; congruence). lia. }
    assert (REP : reports asort [s] (c_ray c) 0 k q j) by (exists s; repeat split; auto).
    destruct (propagate_first asort AS [s] c) as [(_ & N)|(t & i & -> & (a & b & (s' & S' & T & D & P) & MIN))].
    - elim (N _ _ _ _ REP).
    - destruct a as [|[|a]]; simpl in S'; try discriminate. injection S' as <-.
      assert (t = q).
      { assert (q <= t) by (apply M; auto; eapply nth_error_In; eauto). destruct (MIN _ _ _ _ REP) as [?|[? _]]; lra. }
      subst t. f_equal. apply U.
      assert (X : nth_error (combine (fst (shape_intersect asort s (c_ray c))) (snd (shape_intersect asort s (c_ray c)))) b = Some (Fin q, i)).
      { clear - T D. revert b T D. generalize (fst (shape_intersect asort s (c_ray c))) (snd (shape_intersect asort s (c_ray c))).
        induction l as [|x l IH]; intros l0 [|b] T D; try discriminate; destruct l0; try discriminate; simpl in *; [congruence|auto]. }
      eapply nth_error_In; eauto.
  Qed.
End First.
