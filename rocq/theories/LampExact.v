(** * LampExact: when exactly a static lamp repeats its rays *)
From Coq Require Import Reals Lra Lia List Bool ZArith Permutation.
Import ListNotations.
From Verif Require Import XR Lin LinFacts SpecOptics OpsFacts World Tracer Sources SpecSources SourceFacts SourceProps LampProps.
Open Scope R_scope.

Definition drop (q : key) (ks : list key) : list key := filter (fun x => negb (key_eqb q x)) ks.
Definition fit (s : lamps) : Prop := NoDup (map fst (ls_cache s)) /\ (length (ls_cache s) <= 10)%nat.

Lemma drop_keys : forall q c, map fst (cache_remove q c) = drop q (map fst c).
Proof. induction c as [|[k r] c IH]; simpl; auto. destruct (key_eqb q k); simpl; rewrite ?IH; auto. Qed.
Lemma in_drop : forall q ks x, In x (drop q ks) <-> In x ks /\ x <> q.
Proof. intros q ks x. unfold drop. rewrite filter_In, negb_true_iff, key_eqb_neq. intuition congruence. Qed.
Lemma drop_notin : forall q ks, ~ In q ks -> drop q ks = ks.
Proof.
  induction ks as [|k ks IH]; simpl; intros N; auto. destruct (key_eqb q k) eqn:E; simpl; [apply key_eqb_eq in E; subst; tauto|]. rewrite IH; tauto.
Qed.
Lemma drop_len : forall q ks, NoDup ks -> In q ks -> length ks = S (length (drop q ks)).
Proof.
  induction ks as [|k ks IH]; simpl; intros N I; [tauto|]. inversion N; subst. destruct (key_eqb q k) eqn:E; simpl.
  - apply key_eqb_eq in E. subst. rewrite drop_notin; auto.
  - apply key_eqb_neq in E. destruct I as [I|I]; [congruence|]. rewrite (IH H2 I). reflexivity.
Qed.
Lemma drop_nodup : forall q ks, NoDup ks -> NoDup (drop q ks).
Proof. intros. apply NoDup_filter. exact H. Qed.
Lemma find_some_in : forall k c r, cache_find k c = Some r -> In k (map fst c).
Proof. intros k c r F. apply find_in in F. apply (in_map fst) in F. exact F. Qed.
Lemma notin_find : forall k c, ~ In k (map fst c) -> cache_find k c = None.
Proof. intros k c N. destruct (cache_find k c) eqn:F; auto. apply find_some_in in F. tauto. Qed.
Lemma firstn_nodup : forall {A} n (l : list A), NoDup l -> NoDup (firstn n l).
Proof.
  induction n as [|n IH]; intros [|x l] N; simpl; try constructor; inversion N; subst; auto. intro I. apply H1. rewrite <- (firstn_skipn n l). apply in_or_app. auto.
Qed.
Lemma firstn_incl : forall {A} n (l : list A), incl (firstn n l) l.
Proof. intros A n l x I. rewrite <- (firstn_skipn n l). apply in_or_app. auto. Qed.

Lemma nodup_front : forall {A} (a b : list A), NoDup (a ++ b) -> NoDup a.
Proof. induction a as [|x a IH]; intros b N; [constructor|]. inversion N; subst. constructor; [|eapply IH; eauto]. intro I. apply H1, in_or_app. auto. Qed.

Section Exact.
  Variable rnd : nat -> R.

  Lemma step_keys : forall s j m x, fit s -> nth_error (ls_lamps s) j = Some x ->
    map fst (ls_cache (fst (lamp_step rnd (Generate j m) s))) = firstn 10 ((j, m) :: drop (j, m) (map fst (ls_cache s))).
  Proof.
    intros s j m x (ND & L) X. destruct (cache_find (j, m) (ls_cache s)) as [r|] eqn:F.
    - rewrite (step_hit rnd s j m x r X F). cbn [fst ls_cache map]. rewrite drop_keys. symmetry. apply firstn_all2. cbn [length].
      pose proof (drop_len _ _ ND (find_some_in _ _ _ F)) as D. rewrite map_length in D. unfold key in *. lia.
    - rewrite (step_miss rnd s j m x X F). cbv zeta. cbn [fst ls_cache]. rewrite drop_notin by (apply find_none_notin; exact F). rewrite <- firstn_map. reflexivity.
  Qed.
  Lemma fit_step : forall c s, fit s -> fit (fst (lamp_step rnd c s)).
  Proof.
    intros c s FI. destruct c as [w le a wl|j m|j t|j wl]; try exact FI.
    destruct (nth_error (ls_lamps s) j) as [x|] eqn:X; [|unfold lamp_step; rewrite X; exact FI].
    pose proof (step_keys s j m x FI X) as K. split.
    - rewrite K. apply firstn_nodup. constructor; [rewrite in_drop; tauto|]. apply drop_nodup, FI.
    - rewrite <- (map_length fst), K, firstn_length. lia.
  Qed.
  Lemma fit_run : forall cs s, fit s -> fit (lamp_run rnd cs s).
  Proof. induction cs as [|c cs IH]; simpl; intros s F; auto. apply IH, fit_step, F. Qed.
  Lemma fit_start : fit no_lamps.
  Proof. split; simpl; [constructor|lia]. Qed.
  Lemma lamps_grow : forall c s, (length (ls_lamps s) <= length (ls_lamps (fst (lamp_step rnd c s))))%nat.
  Proof.
    intros c s. destruct c as [w le a wl|j m|j t|j wl]; cbn [lamp_step fst ls_lamps]; rewrite ?app_length, ?list_upd_length; try lia.
    destruct (nth_error (ls_lamps s) j) as [x|]; [|cbn; lia]. destruct (cache_find (j, m) (ls_cache s)); [cbn; lia|].
    destruct (generate_rays rnd (l_source x) (l_wl x) (l_world x) (ls_pos s) m). cbn. lia.
  Qed.

  (** where the key [k] stands among those asked for since *)
  Definition stands (k : key) (reqs ks : list key) : Prop :=
    (exists pre post, ks = pre ++ k :: post /\ ~ In k pre /\ (forall x, In x pre <-> In x reqs)) \/
    (~ In k ks /\ exists ten, NoDup ten /\ length ten = 10%nat /\ incl ten reqs).
  Lemma stands_step : forall k reqs ks q, NoDup ks -> q <> k -> stands k reqs ks -> stands k (reqs ++ [q]) (firstn 10 (q :: drop q ks)).
  Proof.
    intros k reqs ks q ND Q [(pre & post & E & N & I)|(N & ten & T1 & T2 & T3)].
    - assert (E' : q :: drop q ks = (q :: drop q pre) ++ k :: drop q post).
      { rewrite E. unfold drop. rewrite filter_app. cbn [filter]. assert (K : key_eqb q k = false) by (apply key_eqb_neq; exact Q). rewrite K. reflexivity. }
      rewrite E'. set (pre' := q :: drop q pre).
      assert (N' : ~ In k pre') by (intros [X|X]; [congruence|apply in_drop in X; tauto]).
      assert (I' : forall x, In x pre' <-> In x (reqs ++ [q])).
      { intro x. unfold pre'. rewrite in_app_iff. cbn [In]. rewrite in_drop, I. assert (D : x = q \/ x <> q) by (destruct (key_eqb x q) eqn:K; [apply key_eqb_eq in K|apply key_eqb_neq in K]; auto). intuition congruence. }
      destruct (le_lt_dec (length pre') 9) as [L|L].
      + left. rewrite (firstn_keep pre' k (drop q post) 9 L). eexists pre', _. split; [reflexivity|]. split; assumption.
      + right. rewrite firstn_app. replace (10 - length pre')%nat with 0%nat by lia. rewrite firstn_O, app_nil_r. split.
        * intro X. apply firstn_incl in X. tauto.
        * exists (firstn 10 pre'). split; [|split].
          -- apply firstn_nodup. unfold pre'. constructor; [rewrite in_drop; tauto|]. apply drop_nodup. rewrite E in ND. apply nodup_front in ND. exact ND.
          -- rewrite firstn_length. lia.
          -- intros x X. apply firstn_incl in X. apply I', X.
    - right. split.
      + intro X. apply firstn_incl in X. destruct X as [X|X]; [congruence|]. apply in_drop in X. tauto.
      + exists ten. split; [exact T1|]. split; [exact T2|]. intros x X. apply in_or_app. left. auto.
  Qed.
  Lemma stands_run : forall k cs s reqs, fit s -> (forall j m, In (Generate j m) cs -> (j < length (ls_lamps s))%nat /\ (j, m) <> k) ->
    stands k reqs (map fst (ls_cache s)) -> stands k (reqs ++ other_requests (fst k) (snd k) cs) (map fst (ls_cache (lamp_run rnd cs s))).
  Proof.
    intros k cs. induction cs as [|c cs IH]; intros s reqs F V S; [simpl; rewrite app_nil_r; exact S|].
    assert (V' : forall j m, In (Generate j m) cs -> (j < length (ls_lamps (fst (lamp_step rnd c s))))%nat /\ (j, m) <> k).
    { intros j m I. destruct (V j m (or_intror I)) as (A & B). split; auto. pose proof (lamps_grow c s). lia. }
    cbn [lamp_run]. unfold other_requests. cbn [flat_map]. fold (other_requests (fst k) (snd k) cs). rewrite app_assoc.
    apply IH; [apply fit_step; exact F|exact V'|]. destruct c as [w le a wl|j m|j t|j wl]; try (rewrite app_nil_r; exact S).
    destruct (V j m (or_introl eq_refl)) as (A & B). apply nth_error_Some in A. destruct (nth_error (ls_lamps s) j) as [x|] eqn:X; [|congruence].
    rewrite <- (surjective_pairing k). assert (K : key_eqb k (j, m) = false) by (apply key_eqb_neq; congruence). rewrite K.
    rewrite (step_keys s j m x F X). apply stands_step; auto. apply F.
  Qed.

  Theorem exactly_repeats : forall cs0 cs i n r, let s := lamp_run rnd cs0 no_lamps in
    answer rnd s i n = Some r -> (forall j m, In (Generate j m) cs -> (j < length (ls_lamps s))%nat /\ (j, m) <> (i, n)) ->
    let s' := lamp_run rnd (Generate i n :: cs) s in
    (at_most 9 (other_requests i n cs) -> answer rnd s' i n = Some r) /\
    (~ at_most 9 (other_requests i n cs) -> exists x, nth_error (ls_lamps s') i = Some x /\
       answer rnd s' i n = Some (fst (generate_rays rnd (l_source x) (l_wl x) (l_world x) (ls_pos s') n))).
  Proof.
    intros cs0 cs i n r s A V s'. split; [apply repeats_while_cached; exact A|]. intro NA.
    assert (F : fit s) by (apply fit_run, fit_start).
    assert (LX : (i < length (ls_lamps s))%nat).
    { apply nth_error_Some. intro Z. unfold answer, lamp_step in A. rewrite Z in A. discriminate. }
    destruct (nth_error (ls_lamps s) i) as [x0|] eqn:X0; [|apply nth_error_None in X0; lia].
    assert (S1 : stands (i, n) [] (map fst (ls_cache (fst (lamp_step rnd (Generate i n) s))))).
    { rewrite (step_keys s i n x0 F X0). left. exists [], (firstn 9 (drop (i, n) (map fst (ls_cache s)))). split; [reflexivity|]. split; [tauto|]. simpl. tauto. }
    assert (V1 : forall j m, In (Generate j m) cs -> (j < length (ls_lamps (fst (lamp_step rnd (Generate i n) s))))%nat /\ (j, m) <> (i, n)).
    { intros j m I. destruct (V j m I). split; auto. pose proof (lamps_grow (Generate i n) s). lia. }
    pose proof (stands_run (i, n) cs _ [] (fit_step _ _ F) V1 S1) as ST. cbn [app fst snd] in ST.
    change (lamp_run rnd cs (fst (lamp_step rnd (Generate i n) s))) with s' in ST.
    assert (GR : forall cs s, (length (ls_lamps s) <= length (ls_lamps (lamp_run rnd cs s)))%nat).
    { induction cs1 as [|c cs1 IH]; intro s1; cbn [lamp_run]; [lia|]. pose proof (lamps_grow c s1). pose proof (IH (fst (lamp_step rnd c s1))). lia. }
    destruct (nth_error (ls_lamps s') i) as [x|] eqn:X; [|apply nth_error_None in X; pose proof (GR (Generate i n :: cs) s); fold s' in H; lia].
    exists x. split; [reflexivity|]. destruct ST as [(pre & post & E & N & I)|(N & _)].
    - exfalso. apply NA. exists pre. split; [|intros y Y; apply I, Y].
      assert (F' : fit s') by (apply fit_run, F). destruct F' as (_ & L). rewrite <- (map_length fst), E, app_length in L. cbn [length] in L. lia.
    - unfold answer. rewrite (step_miss rnd s' i n x X (notin_find _ _ N)). reflexivity.
  Qed.
End Exact.
