(** * CrossingProps: rays stop where they first enter or leave a solid *)
From Coq Require Import Reals Lra Lia List Bool ZArith Permutation Sorted.
Import ListNotations.
From Verif Require Import XR XRFacts Arr ArrFacts Lin LinFacts Prim Csg SpecCsg CsgFacts Surf SpecGeom SpecTree PrimFacts2 CsgProps TreeFacts SurfFacts
  World SpecWorld Tracer SpecTrace TraceFacts3 FirstHit SpecCrossing Crossing.
Open Scope R_scope.

Lemma edges_hits : forall r f x, In x (edges r f) <-> In x (surf_hits f r).
Proof.
  intros r f x. unfold edges. destruct (is_plane (s_prim f)) eqn:E; [|tauto]. rewrite surf_hits_alt. destruct (s_prim f) as [| | | |w l] eqn:EP; try discriminate.
  assert (D : exists h, prim_hits (PPlane w l) (ray_map (s_obj f) r) = (h, h)).
  { cbn [prim_hits]. unfold plane_hits. destruct (plane_axis_hits w _ _), (plane_axis_hits l _ _). eauto. }
  destruct D as (h & ->). unfold sort2. simpl. destruct (xsle h h); simpl; tauto.
Qed.
Lemma count_flat : forall A (l : list A) (k : A -> list xr) v x y, In x l -> In y l -> In v (k x) -> In v (k y) ->
  (count_occ xr_eq_dec (flat_map k l) v <= 1)%nat -> x = y.
Proof.
  induction l as [|z l IH]; intros k v x y Ix Iy Vx Vy C; [destruct Ix|]. simpl in C. rewrite count_occ_app in C.
  assert (Z : forall u, In u l -> In v (k u) -> (1 <= count_occ xr_eq_dec (flat_map k l) v)%nat).
  { intros u I V. apply (count_occ_In xr_eq_dec). apply in_flat_map. eauto. }
  assert (Y : In v (k z) -> (1 <= count_occ xr_eq_dec (k z) v)%nat) by (intro V; apply (count_occ_In xr_eq_dec); auto).
  destruct Ix as [->|Ix], Iy as [->|Iy]; auto.
  - specialize (Z _ Iy Vy). specialize (Y Vx). lia.
  - specialize (Z _ Ix Vx). specialize (Y Vy). lia.
  - apply (IH k v); auto. lia.
Qed.
Lemma separate_one : forall comps r q s, separate comps r q -> In s comps ->
  forall t, 0 < t <= q -> (count_occ xr_eq_dec (flat_map (edges r) (surface_ids s)) (Fin t) <= 1)%nat.
Proof.
  intros comps r q s SP I t T. specialize (SP t T). apply in_split in I. destruct I as (A & B & ->).
  rewrite flat_map_app in SP. simpl in SP. rewrite !flat_map_app, !count_occ_app in SP. lia.
Qed.

Section Scene.
  Variable asort : list xr -> list nat.
  Hypothesis AS : argsort_ok asort.

  Lemma reports_in : forall comps r s t, In s comps -> In (Fin t) (fst (shape_intersect asort s r)) -> 0 < t ->
    exists i k sid, reports asort comps r i k t sid.
  Proof.
    intros comps r s t I H P. destruct (In_nth_error _ _ I) as (i & N). destruct (In_nth_error _ _ H) as (k & K).
    destruct (shape_lengths asort AS s r) as (L1 & L2).
    destruct (nth_error (snd (shape_intersect asort s r)) k) as [sid|] eqn:E.
    - exists i, k, sid, s. auto.
    - apply nth_error_None in E. assert (k < length (fst (shape_intersect asort s r)))%nat by (apply nth_error_Some; congruence). lia.
  Qed.
  Theorem first_crossing : forall comps r q sid, world_ray r -> (forall s, In s comps -> visible r s) -> 0 < q -> separate comps r q ->
    (first_hit asort comps r q sid <->
     (forall s, In s comps -> undisturbed s r q) /\
     exists s f, In s comps /\ meets s r q /\ In f (surface_ids s) /\ In (Fin q) (surf_hits f r) /\ s_id f = sid).
  Proof.
    intros comps r q sid W V Q SP. split.
    - intros F. pose proof F as (i & k & (s & N & A & B & _) & M). split.
      + intros s' I. apply (seen_undisturbed asort AS r W s' q (V s' I) (separate_one _ _ _ _ SP I)). intros t H P.
        destruct (reports_in comps r s' t I H P) as (i' & k' & sid' & R). destruct (M _ _ _ _ R) as [?|[? _]]; lra.
      + destruct (first_hit_surface asort AS _ _ _ _ F) as (s1 & f & I1 & IF & E & H).
        exists s, f. pose proof (nth_error_In _ _ N) as IS. split; auto.
        assert (X : In (Fin q, sid) (combine (fst (shape_intersect asort s r)) (snd (shape_intersect asort s r)))).
        { clear - A B. revert A B. generalize (fst (shape_intersect asort s r)), (snd (shape_intersect asort s r)).
          induction k as [|k IH]; intros [|x xs] [|y ys]; simpl; try discriminate.
          - intros A B. inversion A; inversion B; auto.
          - intros A B. right. apply IH; auto. }
        destruct (shape_leaf asort AS s r _ _ X) as [D|(g & G1 & G2 & G3)]; [discriminate|].
        assert (g = f). { apply (count_flat _ (flat_map surface_ids comps) (edges r) (Fin q)); try (apply in_flat_map; eauto); try (apply edges_hits; auto). apply SP; lra. }
        subst g. repeat split; auto. apply (seen_meets asort AS r W s q (V s IS)); [apply (separate_one _ _ _ _ SP IS); lra|]. eapply nth_error_In; eauto.
    - intros (U & s & f & I & M & IF & H & E).
      assert (HQ : In (Fin q) (fst (shape_intersect asort s r))).
      { apply (seen_meets asort AS r W s q (V s I)); auto. apply (separate_one _ _ _ _ SP I). lra. }
      destruct (reports_in comps r s q I HQ Q) as (i & k & sid1 & R).
      destruct (propagate_first asort AS comps (Col r 0 0 0 0 0)) as [(_ & N)|(t & sid2 & _ & F)]; [elim (N _ _ _ _ R)|]. cbn [c_ray] in F.
      assert (T : t = q).
      { pose proof F as (i' & k' & (s' & N & A & _ & P) & MIN). destruct (MIN _ _ _ _ R) as [L|[L _]]; auto.
        pose proof (nth_error_In _ _ N) as IS. assert (q <= t); [|lra].
        apply (proj2 (seen_undisturbed asort AS r W s' q (V s' IS) (separate_one _ _ _ _ SP IS)) (U s' IS)); auto. eapply nth_error_In; eauto. }
      subst t. destruct (first_hit_surface asort AS _ _ _ _ F) as (s' & g & IS & IG & EG & HG).
      assert (g = f). { apply (count_flat _ (flat_map surface_ids comps) (edges r) (Fin q)); try (apply in_flat_map; eauto); try (apply edges_hits; auto). apply SP; lra. }
      subst g. rewrite <- E, EG. exact F.
  Qed.
  Theorem no_crossing : forall comps r, world_ray r -> (forall s, In s comps -> visible r s) -> (forall q, separate comps r q) ->
    (no_hit asort comps r <-> forall s q, In s comps -> undisturbed s r q).
  Proof.
    intros comps r W V SP. split.
    - intros N s q I. apply (seen_undisturbed asort AS r W s q (V s I) (separate_one _ _ _ _ (SP q) I)). intros t H P.
      destruct (reports_in comps r s t I H P) as (i & k & sid & R). elim (N _ _ _ _ R).
    - intros U i k t sid (s & N & A & _ & P). pose proof (nth_error_In _ _ N) as IS.
      assert (t + 1 <= t); [|lra].
      apply (proj2 (seen_undisturbed asort AS r W s (t + 1) (V s IS) (separate_one _ _ _ _ (SP (t + 1)) IS)) (U s (t + 1) IS)); auto. eapply nth_error_In; eauto.
  Qed.
End Scene.
