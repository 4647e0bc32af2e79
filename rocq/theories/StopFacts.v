(** * StopFacts: sorting with ties, and the column of a plane minus a solid *)
From Coq Require Import Reals Lra Lia List Bool ZArith Sorted Permutation.
Import ListNotations.
From Verif Require Import XR XRFacts Arr ArrFacts Lin LinFacts Prim Csg Surf SpecGeom SpecTree CsgProps World Tracer SpecComponents SpecStop.
Open Scope R_scope.

(** ** One order only *)
Lemma sorted_unique : forall (R : nat -> nat -> Prop), (forall a b, R a b -> R b a -> False) ->
  forall p q, StronglySorted R p -> StronglySorted R q -> Permutation p q -> p = q.
Proof.
  intros R A. induction p as [|a p IH]; intros q P Q E.
  - apply Permutation_nil in E. auto.
  - destruct q as [|b q]; [apply Permutation_sym, Permutation_nil in E; discriminate|].
    inversion P as [|? ? P1 P2]; subst. inversion Q as [|? ? Q1 Q2]; subst. rewrite Forall_forall in P2, Q2.
    assert (a = b).
    { destruct (Permutation_in a E (or_introl eq_refl)) as [H|H]; [auto|].
      destruct (Permutation_in b (Permutation_sym E) (or_introl eq_refl)) as [K|K]; [auto|].
      exfalso. exact (A a b (P2 _ K) (Q2 _ H)). }
    subst b. f_equal. apply IH; auto. eapply Permutation_cons_inv; eauto.
Qed.
Definition tie_order (l : list xr) (i j : nat) : Prop :=
  xsle (nth i l PInf) (nth j l PInf) = true /\ (nth i l PInf = nth j l PInf -> (i < j)%nat).
Lemma tie_asym : forall l a b, tie_order l a b -> tie_order l b a -> False.
Proof. intros l a b [A T] [B U]. pose proof (xsle_antisym _ _ A B) as E. specialize (T E). specialize (U (eq_sym E)). lia. Qed.
Lemma gather_sorted : forall l p, StronglySorted (fun a b => xsle a b = true) (gather PInf l p) ->
  StronglySorted (fun i j => xsle (nth i l PInf) (nth j l PInf) = true) p.
Proof.
  intros l. induction p as [|i p IH]; intro S; constructor; inversion S as [|? ? S1 S2]; subst; auto.
  rewrite Forall_forall in *. intros j J. apply S2. apply (in_map (fun k => nth k l PInf) p j J).
Qed.
Lemma sorted_and : forall (P Q : nat -> nat -> Prop) p, StronglySorted P p -> StronglySorted Q p -> StronglySorted (fun i j => P i j /\ Q i j) p.
Proof.
  intros P Q. induction p as [|i p IH]; intros A B; constructor; inversion A as [|? ? A1 A2]; inversion B as [|? ? B1 B2]; subst; auto.
  rewrite Forall_forall in *. auto.
Qed.
Lemma asort_unique : forall asort, argsort_ok asort -> keeps_ties asort -> forall l p,
  Permutation p (seq 0 (length l)) -> StronglySorted (tie_order l) p -> asort l = p.
Proof.
  intros asort AS KT l p P Q. destruct (AS l) as [A B]. apply (sorted_unique (tie_order l) (tie_asym l)); [|exact Q|].
  - apply sorted_and; [apply gather_sorted, B|apply KT].
  - etransitivity; [exact A|]. symmetry. exact P.
Qed.

(** ** The stable sort keeps ties, another one turns them round *)
Lemma insert_ties : forall l i p, StronglySorted (tie_order l) p -> Forall (fun j => (i < j)%nat) p ->
  StronglySorted (tie_order l) (insert_idx xsle PInf l i p).
Proof.
  intros l i. induction p as [|j p IH]; intros S F; cbn [insert_idx].
  - constructor; constructor.
  - inversion S as [|? ? S1 S2]; subst. inversion F as [|? ? F1 F2]; subst. destruct (xsle (nth i l PInf) (nth j l PInf)) eqn:E.
    + constructor; [exact S|]. constructor; [split; auto|]. rewrite Forall_forall in *. intros k K. split; [|auto].
      eapply xsle_trans; [exact E|]. apply S2, K.
    + constructor; [auto|]. rewrite Forall_forall. intros k K. apply (Permutation_in _ (insert_idx_perm xsle PInf l i p)) in K.
      destruct K as [<-|K]; [|rewrite Forall_forall in S2; auto]. split.
      * destruct (xsle_total (nth i l PInf) (nth j l PInf)) as [H|H]; congruence.
      * intro H. rewrite H, xsle_refl in E. discriminate.
Qed.
Lemma stable_keeps_ties : keeps_ties (argsort_stable xsle PInf).
Proof.
  intro l. assert (K : forall n m, StronglySorted (tie_order l) (fold_right (insert_idx xsle PInf l) [] (seq m n)) /\
    Permutation (fold_right (insert_idx xsle PInf l) [] (seq m n)) (seq m n)).
  { induction n as [|n IH]; intro m; cbn [seq fold_right]; [split; constructor|]. destruct (IH (S m)) as [A B]. split.
    - apply insert_ties; [exact A|]. rewrite Forall_forall. intros j J. apply (Permutation_in _ B), in_seq in J. lia.
    - rewrite insert_idx_perm. constructor. exact B. }
  destruct (K (length l) O) as [A _]. unfold argsort_stable. revert A. generalize (fold_right (insert_idx xsle PInf l) [] (seq 0 (length l))).
  induction 1 as [|i p A IH F]; constructor; auto. rewrite Forall_forall in *. intros j J. apply F, J.
Qed.
Definition turning : list xr -> list nat := argsort_stable (fun a b => negb (xsle b a)) PInf.
Lemma insert_turning : forall x l, StronglySorted (fun a b => xsle a b = true) l ->
  StronglySorted (fun a b => xsle a b = true) (insert_by (fun a b => negb (xsle b a)) x l).
Proof.
  intro x. induction l as [|y l IH]; intro S; cbn [insert_by]; [repeat constructor|].
  inversion S as [|? ? S1 S2]; subst. destruct (xsle y x) eqn:E; cbn [negb].
  - constructor; [auto|]. rewrite Forall_forall in *. intros z Z.
    assert (P : Permutation (insert_by (fun a b => negb (xsle b a)) x l) (x :: l)).
    { clear. induction l as [|w l IH]; cbn [insert_by]; auto. destruct (negb (xsle w x)); auto. rewrite IH. apply perm_swap. }
    apply (Permutation_in _ P) in Z. destruct Z as [<-|Z]; auto.
  - assert (X : xsle x y = true) by (destruct (xsle_total x y); congruence). constructor; [exact S|]. constructor; [exact X|].
    rewrite Forall_forall in *. intros z Z. eapply xsle_trans; [exact X|]. auto.
Qed.
Lemma turning_ok : argsort_ok turning.
Proof.
  intro l. unfold turning, argsort_stable. generalize (seq 0 (length l)) as q. intro q. split.
  - induction q; simpl; auto. rewrite insert_idx_perm; auto.
  - induction q; simpl; [constructor|]. rewrite insert_idx_gather. apply insert_turning; auto.
Qed.

(** ** Nothing hit *)
Lemma all_inf : forall n : list xr, Forall (eq PInf) n -> forall k, nth k (map positive_or_inf n) PInf = PInf.
Proof.
  induction 1 as [|x n E F IH]; intros [|k]; cbn [map nth]; auto. rewrite <- E. reflexivity.
Qed.
Lemma nothing_hit : forall asort s c hs ids, shape_intersect asort s (c_ray c) = (hs, ids) -> Forall (eq PInf) hs -> let_by asort s c.
Proof.
  intros asort s c hs ids E F. unfold let_by, propagate. cbn [fold_left]. unfold propagate_shape. rewrite E, all_inf by exact F. reflexivity.
Qed.
Lemma gather_inf : forall l p, Forall (eq PInf) l -> Forall (eq PInf) (gather PInf l p).
Proof.
  intros l p F. apply Forall_forall. intros x X. unfold gather in X. apply in_map_iff in X. destruct X as (k & <- & _).
  destruct (nth_in_or_default k l PInf) as [I|D]; [|rewrite D; reflexivity]. rewrite Forall_forall in F. auto.
Qed.

(** ** The column of a plane minus a solid *)
Section Column.
  Variable asort : list xr -> list nat.
  Hypothesis AS : argsort_ok asort.
  Section Ties.
  Hypothesis KT : keeps_ties asort.
  Ltac sorted4 := repeat first [apply SSorted_nil | apply SSorted_cons]; repeat first [apply Forall_nil | apply Forall_cons]; split; cbn [nth];
    first [assumption | intros _; lia | intro; congruence].
  Lemma sort_fst : forall T U V : xr, xsle T U = true -> xsle U V = true -> asort [T; T; U; V] = [0; 1; 2; 3]%nat.
  Proof.
    intros T U V A B. pose proof (xsle_trans _ _ _ A B) as C. pose proof (xsle_refl T) as D. apply (asort_unique asort AS KT); [reflexivity|].
    sorted4.
  Qed.
  Lemma sort_mid : forall T U V : xr, xsle U T = true -> U <> T -> xsle T V = true -> asort [T; T; U; V] = [2; 0; 1; 3]%nat.
  Proof.
    intros T U V A N B. pose proof (xsle_trans _ _ _ A B) as C. pose proof (xsle_refl T) as D. apply (asort_unique asort AS KT).
    - cbn. apply Permutation_sym.  apply (perm_trans (l' := [0; 2; 1; 3]%nat)); [apply perm_skip, perm_swap|apply perm_swap].
    - sorted4.
  Qed.
  Lemma sort_last : forall T U V : xr, xsle U V = true -> xsle V T = true -> U <> T -> V <> T -> asort [T; T; U; V] = [2; 3; 0; 1]%nat.
  Proof.
    intros T U V A B N N'. pose proof (xsle_trans _ _ _ A B) as C. pose proof (xsle_refl T) as D. apply (asort_unique asort AS KT).
    - cbn. apply (Permutation_app_comm [2; 3]%nat [0; 1]%nat).
    - sorted4.
  Qed.
  Lemma sort_inf : forall T : xr, xsle T PInf = true -> T <> PInf -> asort [PInf; PInf; T; T] = [2; 3; 0; 1]%nat.
  Proof. intros T A N. apply sort_last; auto. apply xsle_refl. Qed.
  Lemma fst_inf : forall t, xsle (Fin t) PInf = true.
  Proof. reflexivity. Qed.

  Lemma column_fst : forall t U V i k, xsle (Fin t) U = true -> xsle U V = true ->
    csg_combine PInf asort DIFFERENCE [Fin t; Fin t] [i; i] [U; V] [k; k] = ([Fin t; Fin t; PInf; PInf], [i; i; k; k]).
  Proof.
    intros t U V i k A B. unfold csg_combine, array_csg_unsorted. cbn [app length]. rewrite (sort_fst _ _ _ A B). cbn.
    rewrite (sort_fst (Fin t) PInf PInf) by reflexivity. reflexivity.
  Qed.
  Lemma column_last : forall t u v i k, u <= v -> v < t ->
    csg_combine PInf asort DIFFERENCE [Fin t; Fin t] [i; i] [Fin u; Fin v] [k; k] = ([Fin t; Fin t; PInf; PInf], [i; i; k; k]).
  Proof.
    intros t u v i k A B. unfold csg_combine, array_csg_unsorted. cbn [app length].
    rewrite (sort_last (Fin t) (Fin u) (Fin v)); [| | |intro E; injection E; lra|intro E; injection E; lra]; [|apply rleb_true; lra|apply rleb_true; lra].
    cbn. rewrite sort_inf by (auto; discriminate). reflexivity.
  Qed.
  Lemma column_mid : forall t u v i k, u < t -> t <= v ->
    Forall (eq PInf) (fst (csg_combine PInf asort DIFFERENCE [Fin t; Fin t] [i; i] [Fin u; Fin v] [k; k])).
  Proof.
    intros t u v i k A B. unfold csg_combine, array_csg_unsorted. cbn [app length fst].
    rewrite (sort_mid (Fin t) (Fin u) (Fin v)); [|apply rleb_true; lra|intro E; injection E; lra|apply rleb_true; lra].
    apply gather_inf. cbn. repeat constructor.
  Qed.
  Lemma column_none : forall U V i k, xsle U V = true -> U <> NaN -> V <> NaN -> 
    Forall (eq PInf) (fst (csg_combine PInf asort DIFFERENCE [PInf; PInf] [i; i] [U; V] [k; k])).
  Proof.
    intros U V i k L N M. unfold csg_combine, array_csg_unsorted. cbn [app length fst]. apply gather_inf.
    destruct (xsle PInf U) eqn:E.
    - rewrite (sort_fst _ _ _ E L). cbn. destruct U, V; try discriminate; try congruence; repeat constructor.
    - destruct (xsle PInf V) eqn:E'.
      + rewrite (sort_mid PInf U V); auto; [cbn; repeat constructor| |].
        * destruct (xsle_total U PInf); congruence.
        * intros ->. rewrite xsle_refl in E. discriminate.
      + rewrite (sort_last PInf U V); auto; [cbn; repeat constructor| | |].
        * destruct (xsle_total V PInf); congruence.
        * intros ->. rewrite xsle_refl in E. discriminate.
        * intros ->. rewrite xsle_refl in E'. discriminate.
  Qed.
  End Ties.

  (** through the solid, however ties are sorted *)
  Lemma four : forall p, Permutation p [0; 1; 2; 3]%nat -> exists a b c d, p = [a; b; c; d] /\ NoDup p /\ Forall (fun i => i < 4)%nat p.
  Proof.
    intros p P. pose proof (Permutation_length P) as L. destruct p as [|a [|b [|c [|d [|e p]]]]]; try discriminate.
    exists a, b, c, d. split; [reflexivity|]. split.
    - apply (Permutation_NoDup (Permutation_sym P)). repeat constructor; cbn; lia.
    - apply Forall_forall. intros i I. apply (Permutation_in _ P) in I. cbn in I. lia.
  Qed.
  Lemma column_through : forall t u v i k, u < t < v ->
    Forall (eq PInf) (fst (csg_combine PInf asort DIFFERENCE [Fin t; Fin t] [i; i] [Fin u; Fin v] [k; k])).
  Proof.
    intros t u v i k T. unfold csg_combine, array_csg_unsorted. cbn [app length fst]. apply gather_inf.
    destruct (AS [Fin t; Fin t; Fin u; Fin v]) as [P S]. cbn [length seq] in P. destruct (four _ P) as (a & b & c & d & E & N & F).
    rewrite E in *. assert (Q : [a; b; c; d] = [2; 0; 1; 3]%nat \/ [a; b; c; d] = [2; 1; 0; 3]%nat).
    { unfold gather in S. cbn [map] in S. inversion S as [|? ? S1 G1]; subst. inversion S1 as [|? ? S2 G2]; subst. inversion S2 as [|? ? S3 G3]; subst.
      inversion G1 as [|? ? Lab G1']; subst. inversion G1' as [|? ? Lac G1'']; subst. inversion G1'' as [|? ? Lad _]; subst.
      inversion G2 as [|? ? Lbc G2']; subst. inversion G2' as [|? ? Lbd _]; subst. inversion G3 as [|? ? Lcd _]; subst.
      inversion F as [|? ? Fa F1]; subst. inversion F1 as [|? ? Fb F2]; subst. inversion F2 as [|? ? Fc F3]; subst. inversion F3 as [|? ? Fd _]; subst.
      inversion N as [|? ? Na N1]; subst. inversion N1 as [|? ? Nb N2]; subst. inversion N2 as [|? ? Nc _]; subst. cbn [In] in Na, Nb, Nc.
      clear S S1 S2 S3 G1 G1' G1'' G2 G2' G3 F F1 F2 F3 N N1 N2 P E.
      assert (X : forall x y, x < y -> xsle (Fin y) (Fin x) = true -> False) by (intros x y L K; apply rleb_true in K; lra).
      destruct a as [|[|[|[|a]]]]; [| | | |lia]; (destruct b as [|[|[|[|b]]]]; [| | | |lia]); try lia; 
      (destruct c as [|[|[|[|c]]]]; [| | | |lia]); try lia; (destruct d as [|[|[|[|d]]]]; [| | | |lia]); try lia; cbn [nth] in *; auto;
      exfalso; first [apply (X u t); [lra|assumption] | apply (X t v); [lra|assumption] | apply (X u v); [lra|assumption]]. }
    destruct Q as [-> | ->]; cbn; repeat constructor.
  Qed.
End Column.
