(** * Chords: a ray that enters and leaves a CSG part once *)
From Coq Require Import Reals Lra Lia List Bool ZArith Permutation Sorted.
Import ListNotations.
From Verif Require Import XR XRFacts Arr ArrFacts Lin LinFacts Prim Csg SpecCsg CsgFacts Surf SpecGeom SpecTree CsgProps SpanFacts BoxFacts TreeFacts FirstHit.
Open Scope R_scope.

Lemma below_ge : forall l w t, (forall x, In x l -> xsle (Fin w) x = true) -> t <= w -> below xsle (Fin t) l = O.
Proof.
  intros l w t H L. apply below_none. apply Forall_forall. intros x I. unfold before.
  rewrite (xsle_trans (Fin t) (Fin w) x); auto. simpl. apply rleb_true. exact L.
Qed.
Lemma below_pinf : forall n t, below xsle (Fin t) (repeat PInf n) = O.
Proof. intros n t. apply below_none. apply Forall_forall. intros x I. apply repeat_spec in I. subst. reflexivity. Qed.
Lemma below_cons : forall x l t, below xsle (Fin t) (Fin x :: l) = ((if Rlt_dec x t then 1 else 0) + below xsle (Fin t) l)%nat.
Proof.
  intros x l t. unfold below. cbn [filter]. destruct (Rlt_dec x t) as [L|L].
  - replace (before xsle (Fin x) (Fin t)) with true; [reflexivity|]. symmetry. apply before_fin'. exact L.
  - replace (before xsle (Fin x) (Fin t)) with false; [reflexivity|]. symmetry. destruct (before xsle (Fin x) (Fin t)) eqn:E; auto. apply before_fin' in E. contradiction.
Qed.
Definition ends (l : list xr) : Prop := forall x, In x l -> x = PInf \/ exists e, x = Fin e.
Lemma gap : forall l, StronglySorted (fun x y => xsle x y = true) l -> ends l ->
  (exists n, l = repeat PInf n) \/ exists w l', l = Fin w :: l' /\ forall x, In x l' -> xsle (Fin w) x = true.
Proof.
  intros l S E. destruct l as [|x l]; [left; exists O; reflexivity|]. inversion S as [|? ? S' F]; subst. rewrite Forall_forall in F.
  destruct (E x (or_introl eq_refl)) as [->|(w & ->)]; [left|right; eauto].
  assert (A : forall y, In y l -> y = PInf).
  { intros y I. destruct (E y (or_intror I)) as [->|(e & ->)]; auto. specialize (F _ I). discriminate. }
  exists (Datatypes.S (length l)). cbn [repeat]. f_equal. clear - A. induction l as [|y l IH]; [reflexivity|]. cbn [length repeat].
  rewrite (A y (or_introl eq_refl)), <- IH; auto. intros; apply A; right; auto.
Qed.
(** Just above [e] the count grows by the number of entries equal to [e]. *)
Lemma below_jump : forall l e, ends l -> exists w, e < w /\
  forall t, e < t <= w -> below xsle (Fin t) l = (below xsle (Fin e) l + count_occ xr_eq_dec l (Fin e))%nat.
Proof.
  induction l as [|x l IH]; intros e E; [exists (e + 1); split; [lra|reflexivity]|].
  destruct (IH e (fun y J => E y (or_intror J))) as (w & W & H). destruct (E x (or_introl eq_refl)) as [->|(x' & ->)].
  - exists w. split; [exact W|]. intros t T. unfold below in *. cbn [filter count_occ]. destruct (xr_eq_dec PInf (Fin e)); [discriminate|].
    change (before xsle PInf (Fin t)) with false. change (before xsle PInf (Fin e)) with false. apply H. exact T.
  - destruct (Rtotal_order x' e) as [L|[L|L]].
    + exists w. split; [exact W|]. intros t T. rewrite !below_cons, (H t T). cbn [count_occ]. destruct (xr_eq_dec (Fin x') (Fin e)) as [X|X]; [injection X as X; lra|].
      destruct (Rlt_dec x' t), (Rlt_dec x' e); try lra; lia.
    + subst x'. exists w. split; [exact W|]. intros t T. rewrite !below_cons, (H t T). cbn [count_occ]. destruct (xr_eq_dec (Fin e) (Fin e)) as [X|X]; [|congruence].
      destruct (Rlt_dec e t), (Rlt_dec e e); try lra; lia.
    + exists (Rmin w x'). split; [apply Rmin_glb_lt; auto|]. intros t T. pose proof (Rmin_l w x'). pose proof (Rmin_r w x').
      rewrite !below_cons, (H t) by lra. cbn [count_occ]. destruct (xr_eq_dec (Fin x') (Fin e)) as [X|X]; [injection X as X; lra|].
      destruct (Rlt_dec x' t), (Rlt_dec x' e); try lra; lia.
Qed.
Lemma two_ends : forall out a b, a < b ->
  StronglySorted (fun x y => xsle x y = true) out -> ends out ->
  (forall e, (count_occ xr_eq_dec out (Fin e) <= 1)%nat \/ ((e = a \/ e = b) /\ (count_occ xr_eq_dec out (Fin e) <= 2)%nat)) ->
  (forall t, inside_at xsle (Fin t) out = true <-> a < t <= b) ->
  exists n, out = Fin a :: Fin b :: repeat PInf n.
Proof.
  intros out a b AB S E C I. unfold inside_at in I.
  assert (O : forall e, Nat.odd (count_occ xr_eq_dec out (Fin e)) = true <-> e = a \/ e = b).
  { intro e. destruct (below_jump out e E) as (w & W & J).
    assert (exists t, e < t <= w /\ (e < a -> t < a) /\ (e < b -> t < b)) as (t & T & TA & TB).
    { destruct (Rlt_dec e a) as [L|L]; [|destruct (Rlt_dec e b) as [L'|L']].
      - exists (Rmin w ((e + a) / 2)). assert (e < Rmin w ((e + a) / 2)) by (apply Rmin_glb_lt; lra).
        pose proof (Rmin_l w ((e + a) / 2)). pose proof (Rmin_r w ((e + a) / 2)). repeat split; intros; lra.
      - exists (Rmin w ((e + b) / 2)). assert (e < Rmin w ((e + b) / 2)) by (apply Rmin_glb_lt; lra).
        pose proof (Rmin_l w ((e + b) / 2)). pose proof (Rmin_r w ((e + b) / 2)). repeat split; intros; lra.
      - exists w. repeat split; intros; lra. }
    pose proof (I e) as Ie. pose proof (I t) as It. rewrite (J t T), Nat.odd_add in It.
    set (p := Nat.odd (below xsle (Fin e) out)) in *. set (q := Nat.odd (count_occ xr_eq_dec out (Fin e))) in *. clearbody p q.
    assert (CS : (p = true /\ a < e <= b) \/ (p = false /\ ~ a < e <= b)) by (destruct p; [left; split; [reflexivity|apply Ie; reflexivity]|right; split; [reflexivity|intro Q; apply Ie in Q; discriminate]]).
    destruct (Rtotal_order e a) as [L|[L|L]]; [specialize (TA L)| |destruct (Rtotal_order e b) as [L'|[L'|L']]; [specialize (TB L')| |]];
      destruct CS as [(-> & Q)|(-> & Q)]; try lra; try (exfalso; apply Q; lra); cbn in It; destruct q; cbn in It; split; intro H; try reflexivity; try discriminate; try (left; lra); try (right; lra); exfalso;
      try (assert (a < t <= b) by (apply It; reflexivity)); try (assert (~ a < t <= b) by (intro Z; apply It in Z; discriminate)); try lra;
      try (match goal with N : ~ _ < _ <= _ |- _ => apply N; lra end);
      try (assert (t < b) by (apply TB; lra); match goal with N : ~ _ < t <= _ |- _ => apply N; lra end). }
  assert (C1 : forall e, count_occ xr_eq_dec out (Fin e) = if Req_EM_T e a then 1%nat else if Req_EM_T e b then 1%nat else 0%nat).
  { intro e. specialize (O e). assert (C0 : (count_occ xr_eq_dec out (Fin e) <= 2)%nat) by (destruct (C e) as [|(_ & ?)]; lia). specialize (C e). destruct (Req_EM_T e a) as [X|X]; [|destruct (Req_EM_T e b) as [Y|Y]].
    - pose proof (proj2 O (or_introl X)) as OO. clear O C. destruct (count_occ xr_eq_dec out (Fin e)) as [|[|[|k]]]; cbn in *; try reflexivity; try discriminate; lia.
    - pose proof (proj2 O (or_intror Y)) as OO. clear O C. destruct (count_occ xr_eq_dec out (Fin e)) as [|[|[|k]]]; cbn in *; try reflexivity; try discriminate; lia.
    - destruct C as [C|(C & _)]; [|destruct C; contradiction]. destruct (count_occ xr_eq_dec out (Fin e)) as [|[|k]]; [reflexivity| |lia].
      destruct (proj1 O eq_refl); contradiction. }
  clear O C I.
  destruct (gap out S E) as [(n & ->)|(e & l & -> & G)].
  { exfalso. specialize (C1 a). destruct (Req_EM_T a a); [|lra]. assert (In (Fin a) (repeat PInf n)) by (apply (count_occ_In xr_eq_dec); lia). apply repeat_spec in H. discriminate. }
  assert (e = a).
  { destruct (Req_dec e a) as [|N]; auto. exfalso. pose proof (C1 e) as X. cbn [count_occ] in X. destruct (xr_eq_dec (Fin e) (Fin e)); [|congruence].
    destruct (Req_EM_T e a); [contradiction|]. destruct (Req_EM_T e b); [|lia]. subst e. pose proof (C1 a) as Y. cbn [count_occ] in Y.
    destruct (xr_eq_dec (Fin b) (Fin a)) as [Z|Z]; [injection Z as Z; lra|]. destruct (Req_EM_T a a); [|lra].
    assert (J : In (Fin a) l) by (apply (count_occ_In xr_eq_dec); lia). specialize (G _ J). cbn in G. apply rleb_true in G. lra. }
  subst e. assert (S1 : StronglySorted (fun x y => xsle x y = true) l) by (inversion S; auto).
  assert (E1 : ends l) by (intros x J; apply E; right; auto).
  assert (C2 : forall e, count_occ xr_eq_dec l (Fin e) = if Req_EM_T e b then 1%nat else 0%nat).
  { intro e. specialize (C1 e). cbn [count_occ] in C1. destruct (xr_eq_dec (Fin a) (Fin e)) as [X|X], (Req_EM_T e a), (Req_EM_T e b); subst; try lra; try congruence; try lia. }
  destruct (gap l S1 E1) as [(n & ->)|(e & l2 & -> & G2)].
  { exfalso. specialize (C2 b). destruct (Req_EM_T b b); [|lra]. assert (In (Fin b) (repeat PInf n)) by (apply (count_occ_In xr_eq_dec); lia). apply repeat_spec in H. discriminate. }
  assert (e = b).
  { pose proof (C2 e) as X. cbn [count_occ] in X. destruct (xr_eq_dec (Fin e) (Fin e)); [|congruence]. destruct (Req_EM_T e b); [auto|lia]. }
  subst e. destruct (gap l2) as [(n & ->)|(e & l3 & -> & G3)]; [inversion S1; auto|intros x J; apply E1; right; auto|eauto|].
  exfalso. specialize (C2 e). cbn [count_occ] in C2. destruct (xr_eq_dec (Fin e) (Fin e)); [|congruence]. destruct (xr_eq_dec (Fin b) (Fin e)) as [X|X], (Req_EM_T e b); try lia; subst; congruence.
Qed.

Section Chord.
  Variable asort : list xr -> list nat.
  Hypothesis AS : argsort_ok asort.

  (** The ray enters [s] at [u] through surface [i] and leaves it at [v] through [j]. *)
  Definition chord (s : shape) (r : ray) (u : R) (i : Z) (v : R) (j : Z) : Prop :=
    exists n rest, shape_intersect asort s r = (Fin u :: Fin v :: repeat PInf n, i :: j :: rest) /\ length rest = n /\ Nat.odd n = false /\ u < v.

  Lemma two_pairs : forall n u v (i j : Z) rest w k, (n = length rest)%nat ->
    In (Fin w, k) (combine (Fin u :: Fin v :: repeat PInf n) (i :: j :: rest)) -> (w = u /\ k = i) \/ (w = v /\ k = j).
  Proof.
    intros n u v i j rest w k L I. cbn [combine] in I. destruct I as [I|[I|I]]; [injection I; auto|injection I; auto|].
    exfalso. apply in_combine_l in I. apply repeat_spec in I. discriminate.
  Qed.
  Lemma inside_two : forall u v n t, u < v -> (inside_at xsle (Fin t) (Fin u :: Fin v :: repeat PInf n) = true <-> u < t <= v).
  Proof.
    intros u v n t L. unfold inside_at. rewrite !below_cons, below_pinf. destruct (Rlt_dec u t), (Rlt_dec v t); cbn; split; intro H; try discriminate; try lra; auto.
  Qed.
  Lemma sorted_two : forall u v n, u < v -> StronglySorted (fun x y => xsle x y = true) (Fin u :: Fin v :: repeat PInf n).
  Proof.
    intros u v n L. assert (X : forall w, Forall (fun y => xsle (Fin w) y = true) (repeat PInf n)).
    { intro w. apply Forall_forall. intros x I. apply repeat_spec in I. subst. reflexivity. }
    constructor; [constructor; [|apply X]|constructor; [simpl; apply rleb_true; lra|apply X]].
    clear. induction n; cbn [repeat]; constructor; auto. apply Forall_forall. intros x I. apply repeat_spec in I. subst. reflexivity.
  Qed.
  Lemma count_two : forall u v n w, u < v -> count_occ xr_eq_dec (Fin u :: Fin v :: repeat PInf n) (Fin w) =
    (if Req_EM_T u w then 1 else if Req_EM_T v w then 1 else 0)%nat.
  Proof.
    intros u v n w L. assert (P : count_occ xr_eq_dec (repeat PInf n) (Fin w) = O).
    { apply count_occ_not_In. intro I. apply repeat_spec in I. discriminate. }
    cbn [count_occ]. rewrite P. destruct (xr_eq_dec (Fin u) (Fin w)) as [X|X], (xr_eq_dec (Fin v) (Fin w)) as [Y|Y], (Req_EM_T u w) as [Z|Z], (Req_EM_T v w) as [W|W]; subst; try congruence; try lra; auto.
  Qed.

  (** Two chords whose four ends differ, combined to one chord [a, b] *)
  Lemma combine_chords : forall op u v i j n rest p q k l m rest' a b, length rest = n -> length rest' = m -> Nat.odd n = false -> Nat.odd m = false ->
    u < v -> p < q -> (u = p -> u = a \/ u = b) -> (u = q -> u = a \/ u = b) -> (v = p -> v = a \/ v = b) -> (v = q -> v = a \/ v = b) -> a < b ->
    (forall t, bool_op op (rltb u t && rleb t v) (rltb p t && rleb t q) = true <-> a < t <= b) ->
    exists n' i' j' rest'', csg_combine PInf asort op (Fin u :: Fin v :: repeat PInf n) (i :: j :: rest) (Fin p :: Fin q :: repeat PInf m) (k :: l :: rest') =
        (Fin a :: Fin b :: repeat PInf n', i' :: j' :: rest'') /\ length rest'' = n' /\
      (forall w x, (w = a /\ x = i') \/ (w = b /\ x = j') -> (w = u /\ x = i) \/ (w = v /\ x = j) \/ (w = p /\ x = k) \/ (w = q /\ x = l)).
  Proof.
    intros op u v i j n rest p q k l m rest' a b L1 L2 O1 O2 UV PQ D1 D2 D3 D4 AB IN.
    set (lh := Fin u :: Fin v :: repeat PInf n). set (rh := Fin p :: Fin q :: repeat PInf m).
    set (out := csg_combine PInf asort op lh (i :: j :: rest) rh (k :: l :: rest')).
    assert (LL : length lh = length (i :: j :: rest)) by (unfold lh; cbn [length]; rewrite repeat_length; lia).
    assert (LR : length rh = length (k :: l :: rest')) by (unfold rh; cbn [length]; rewrite repeat_length; lia).
    destruct (csg_combine_length xsle PInf asort AS op lh (i :: j :: rest) rh (k :: l :: rest')) as [K1 K2]. fold out in K1, K2.
    assert (PAIR : forall h s, In (h, s) (combine (fst out) (snd out)) -> h = PInf \/
       exists w, h = Fin w /\ ((w = u /\ s = i) \/ (w = v /\ s = j) \/ (w = p /\ s = k) \/ (w = q /\ s = l))).
    { intros h s J. destruct (csg_combine_pair xsle PInf asort AS op lh _ rh _ h s LL LR J) as [->|[X|X]]; auto.
      - destruct h as [w| | |]; [right|left; reflexivity|exfalso|exfalso].
        + destruct (two_pairs n u v i j rest w s (eq_sym L1) X) as [?|?]; exists w; auto.
        + apply in_combine_l in X. destruct X as [X|[X|X]]; try discriminate. apply repeat_spec in X. discriminate.
        + apply in_combine_l in X. destruct X as [X|[X|X]]; try discriminate. apply repeat_spec in X. discriminate.
      - destruct h as [w| | |]; [right|left; reflexivity|exfalso|exfalso].
        + destruct (two_pairs m p q k l rest' w s (eq_sym L2) X) as [?|?]; exists w; auto.
        + apply in_combine_l in X. destruct X as [X|[X|X]]; try discriminate. apply repeat_spec in X. discriminate.
        + apply in_combine_l in X. destruct X as [X|[X|X]]; try discriminate. apply repeat_spec in X. discriminate. }
    assert (EN : ends (fst out)).
    { intros x J. destruct (combine_fst_in (fst out) (snd out) x ltac:(congruence) J) as (y & Y). destruct (PAIR _ _ Y) as [->|(w & -> & _)]; eauto. }
    destruct (two_ends (fst out) a b AB) as (n' & E); auto.
    - apply (csg_combine_sorted xsle PInf asort AS).
    - intro e. unfold out. pose proof (combine_count asort AS op lh (i :: j :: rest) rh (k :: l :: rest') (Fin e) ltac:(discriminate)) as X.
      assert (X1 := count_two u v n e UV). assert (X2 := count_two p q m e PQ). fold lh in X1. fold rh in X2. rewrite X1, X2 in X. clear X1 X2. revert X. repeat destruct (Req_EM_T _ _); intro X; subst; try (left; lia);
        first [destruct (D1 eq_refl) | destruct (D2 eq_refl) | destruct (D3 eq_refl) | destruct (D4 eq_refl)]; right; (split; [auto|lia]).
    - intro t. unfold out. rewrite (csg_combine_inside xsle PInf asort xsle_trans AS).
      + rewrite <- (IN t). assert (X : forall x y (z : nat), x < y -> inside_at xsle (Fin t) (Fin x :: Fin y :: repeat PInf z) = (rltb x t && rleb t y)%bool).
        { intros x y z XY. pose proof (inside_two x y z t XY) as W. destruct (inside_at _ _ _).
          - destruct (proj1 W eq_refl) as [A B]. apply rltb_true in A. apply rleb_true in B. rewrite A, B. reflexivity.
          - destruct (rltb x t) eqn:A, (rleb t y) eqn:B; auto. apply rltb_true in A. apply rleb_true in B. apply (proj2 W). auto. }
        unfold lh, rh. rewrite !X by auto. tauto.
      + reflexivity.
      + apply sorted_two; auto.
      + apply sorted_two; auto.
      + unfold lh. cbn [length]. rewrite repeat_length. exact O1.
      + unfold rh. cbn [length]. rewrite repeat_length. exact O2.
    - rewrite E in K1. cbn [length] in K1. rewrite repeat_length in K1.
      destruct (snd out) as [|i' [|j' rest'']] eqn:ES; cbn [length] in K2; [unfold lh in K2; cbn [length] in K2; lia..|].
      exists n', i', j', rest''. split; [rewrite (surjective_pairing out), E, ES; reflexivity|]. split; [lia|].
      rewrite E in PAIR. cbn [combine] in PAIR. intros w x W.
      assert (J : In (Fin w, x) ((Fin a, i') :: (Fin b, j') :: combine (repeat PInf n') rest'')) by (destruct W as [(-> & ->)|(-> & ->)]; [left|right; left]; reflexivity).
      destruct (PAIR _ _ J) as [X|(w' & X & Y)]; [discriminate|]. injection X as <-. exact Y.
  Qed.

  Lemma chord_leaf : forall f b r u v, surf_hits f r = [Fin u; Fin v] -> u < v -> chord (Leaf f b) r u (s_id f) v (s_id f).
  Proof. intros f b r u v H L. exists O, []. cbn [shape_intersect]. rewrite H. auto. Qed.

  Lemma chord_node : forall nid op b s1 s2 r u i v j p k q l a b', chord s1 r u i v j -> chord s2 r p k q l -> box_hit b r = true ->
    (u = p -> u = a \/ u = b') -> (u = q -> u = a \/ u = b') -> (v = p -> v = a \/ v = b') -> (v = q -> v = a \/ v = b') -> a < b' ->
    (forall t, bool_op op (rltb u t && rleb t v) (rltb p t && rleb t q) = true <-> a < t <= b') ->
    exists i' j', chord (Node nid op b s1 s2) r a i' b' j' /\
      (forall w x, (w = a /\ x = i') \/ (w = b' /\ x = j') -> (w = u /\ x = i) \/ (w = v /\ x = j) \/ (w = p /\ x = k) \/ (w = q /\ x = l)).
  Proof.
    intros nid op b s1 s2 r u i v j p k q l a b' (n & rest & E1 & L1 & O1 & U) (m & rest' & E2 & L2 & O2 & P) BH D1 D2 D3 D4 AB IN.
    destruct (combine_chords op u v i j n rest p q k l m rest' a b' L1 L2 O1 O2 U P D1 D2 D3 D4 AB IN) as (n' & i' & j' & rest'' & E & L & S).
    exists i', j'. split; [|exact S]. exists n', rest''. cbn [shape_intersect]. rewrite BH, E1, E2. split; [exact E|]. split; [exact L|]. split; [|exact AB].
    pose proof (proj1 (csg_combine_length xsle PInf asort AS op (Fin u :: Fin v :: repeat PInf n) (i :: j :: rest) (Fin p :: Fin q :: repeat PInf m) (k :: l :: rest'))) as K.
    rewrite E in K. cbn [fst length] in K. rewrite !repeat_length in K. replace n' with (2 + (n + m))%nat by lia.
    rewrite !Nat.odd_add, O1, O2. reflexivity.
  Qed.

  (** The four ways a spherical face trims one end of a chord; where it just touches the end, the
      hit can be either surface's *)
  Lemma chord_from : forall nid b s1 s2 r u i v j p k q l, chord s1 r u i v j -> chord s2 r p k q l -> box_hit b r = true ->
    u <= p -> p < v -> v < q -> exists k', chord (Node nid INTERSECT b s1 s2) r p k' v j /\ (k' = k \/ (u = p /\ k' = i)).
  Proof.
    intros nid b s1 s2 r u i v j p k q l C1 C2 BH H1 H2 H3.
    destruct (chord_node nid INTERSECT b s1 s2 r u i v j p k q l p v C1 C2 BH) as (i' & j' & C & S); try lra.
    { intro t. cbn [bool_op]. rewrite !andb_true_iff, !rltb_true, !rleb_true. lra. }
    assert (j' = j) by (destruct (S v j' (or_intror (conj eq_refl eq_refl))) as [[? ?]|[[? ?]|[[? ?]|[? ?]]]]; auto; lra). subst j'.
    exists i'. split; [exact C|]. destruct (S p i' (or_introl (conj eq_refl eq_refl))) as [[? ?]|[[? ?]|[[? ?]|[? ?]]]]; auto; lra.
  Qed.
  Lemma chord_upto : forall nid b s1 s2 r u i v j p k q l, chord s1 r u i v j -> chord s2 r p k q l -> box_hit b r = true ->
    p < u -> u < q -> q <= v -> exists l', chord (Node nid INTERSECT b s1 s2) r u i q l' /\ (l' = l \/ (v = q /\ l' = j)).
  Proof.
    intros nid b s1 s2 r u i v j p k q l C1 C2 BH H1 H2 H3.
    destruct (chord_node nid INTERSECT b s1 s2 r u i v j p k q l u q C1 C2 BH) as (i' & j' & C & S); try lra.
    { intro t. cbn [bool_op]. rewrite !andb_true_iff, !rltb_true, !rleb_true. lra. }
    assert (i' = i) by (destruct (S u i' (or_introl (conj eq_refl eq_refl))) as [[? ?]|[[? ?]|[[? ?]|[? ?]]]]; auto; lra). subst i'.
    exists j'. split; [exact C|]. destruct (S q j' (or_intror (conj eq_refl eq_refl))) as [[? ?]|[[? ?]|[[? ?]|[? ?]]]]; auto; lra.
  Qed.
  Lemma chord_after : forall nid b s1 s2 r u i v j p k q l, chord s1 r u i v j -> chord s2 r p k q l -> box_hit b r = true ->
    p < u -> u < q -> q < v -> chord (Node nid DIFFERENCE b s1 s2) r q l v j.
  Proof.
    intros nid b s1 s2 r u i v j p k q l C1 C2 BH H1 H2 H3.
    destruct (chord_node nid DIFFERENCE b s1 s2 r u i v j p k q l q v C1 C2 BH) as (i' & j' & C & S); try lra.
    { intro t. cbn [bool_op]. rewrite !andb_true_iff, negb_true_iff, andb_false_iff, !rltb_true, !rleb_true.
      rewrite rltb_false, rleb_false. lra. }
    assert (i' = l) by (destruct (S q i' (or_introl (conj eq_refl eq_refl))) as [[? ?]|[[? ?]|[[? ?]|[? ?]]]]; auto; lra).
    assert (j' = j) by (destruct (S v j' (or_intror (conj eq_refl eq_refl))) as [[? ?]|[[? ?]|[[? ?]|[? ?]]]]; auto; lra).
    subst. exact C.
  Qed.
  Lemma chord_before : forall nid b s1 s2 r u i v j p k q l, chord s1 r u i v j -> chord s2 r p k q l -> box_hit b r = true ->
    u < p -> p < v -> v < q -> chord (Node nid DIFFERENCE b s1 s2) r u i p k.
  Proof.
    intros nid b s1 s2 r u i v j p k q l C1 C2 BH H1 H2 H3.
    destruct (chord_node nid DIFFERENCE b s1 s2 r u i v j p k q l u p C1 C2 BH) as (i' & j' & C & S); try lra.
    { intro t. cbn [bool_op]. rewrite !andb_true_iff, negb_true_iff, andb_false_iff, !rltb_true, !rleb_true.
      rewrite rltb_false, rleb_false. lra. }
    assert (i' = i) by (destruct (S u i' (or_introl (conj eq_refl eq_refl))) as [[? ?]|[[? ?]|[[? ?]|[? ?]]]]; auto; lra).
    assert (j' = k) by (destruct (S p j' (or_intror (conj eq_refl eq_refl))) as [[? ?]|[[? ?]|[[? ?]|[? ?]]]]; auto; lra).
    subst. exact C.
  Qed.
End Chord.
