(** * ArrFacts: lemmas about Arr *)
From Coq Require Import List Bool ZArith Permutation Sorted Lia Arith.
Import ListNotations.
From Verif Require Import Arr Csg SpecCsg.

Section SortFacts.
  Context {A : Type}.
  Variable leb : A -> A -> bool.
  Hypothesis leb_total : forall a b, leb a b = true \/ leb b a = true.
  Hypothesis leb_trans : forall a b c, leb a b = true -> leb b c = true -> leb a c = true.

  Notation le := (fun a b => leb a b = true).

  Lemma leb_refl : forall a, leb a a = true.
  Proof. intro a; destruct (leb_total a a); auto. Qed.

  Lemma insert_perm : forall x l, Permutation (insert_by leb x l) (x :: l).
  Proof.
    induction l as [|y r IH]; simpl; auto.
    destruct (leb x y); auto.
    rewrite IH. apply perm_swap.
  Qed.

  Lemma sort_perm : forall l, Permutation (sort_by leb l) l.
  Proof.
    induction l as [|x r IH]; simpl; auto.
    rewrite insert_perm. auto.
  Qed.

  Lemma insert_sorted : forall x l, StronglySorted le l -> StronglySorted le (insert_by leb x l).
  Proof.
    induction l as [|y r IH]; intros S; simpl.
    - repeat constructor.
    - inversion S; subst. destruct (leb x y) eqn:E.
      + constructor; auto. constructor; auto.
        eapply Forall_impl; [|exact H2]. intros; eapply leb_trans; eauto.
      + constructor; auto.
        rewrite Forall_forall in *. intros z Hz.
        apply (Permutation_in _ (insert_perm x r)) in Hz. destruct Hz as [->|Hz]; auto.
        destruct (leb_total z y); congruence.
  Qed.

  Lemma sort_sorted : forall l, StronglySorted le (sort_by leb l).
  Proof. induction l; simpl; [constructor|apply insert_sorted; auto]. Qed.

  Lemma sort_length : forall l, length (sort_by leb l) = length l.
  Proof. intro l. apply Permutation_length, sort_perm. Qed.

  Lemma below_perm : forall t l l', Permutation l l' -> below leb t l = below leb t l'.
  Proof.
    unfold below. intros t l l' H; induction H; simpl; auto.
    - destruct (before leb x t); simpl; auto.
    - destruct (before leb x t), (before leb y t); simpl; auto.
    - congruence.
  Qed.

  Lemma below_app : forall t l l', below leb t (l ++ l') = below leb t l + below leb t l'.
  Proof. unfold below; intros. rewrite filter_app, app_length; auto. Qed.

  Lemma before_mono : forall x y t, leb x y = true -> before leb y t = true -> before leb x t = true.
  Proof.
    unfold before; intros x y t H1 H2. apply negb_true_iff in H2. apply negb_true_iff.
    destruct (leb t x) eqn:E; auto.
    rewrite (leb_trans _ _ _ E H1) in H2. discriminate.
  Qed.

  (** In a sorted list, the entries before [t] form a prefix. *)
  Lemma sorted_split : forall t l, StronglySorted le l ->
    exists l1 l2, l = l1 ++ l2 /\ Forall (fun x => before leb x t = true) l1 /\
                  Forall (fun x => before leb x t = false) l2.
  Proof.
    induction l as [|x r IH]; intros S.
    - exists [], []; auto.
    - inversion S; subst. destruct (before leb x t) eqn:E.
      + destruct (IH H1) as (l1 & l2 & -> & F1 & F2).
        exists (x :: l1), l2; auto.
      + exists [], (x :: r); repeat split; auto. constructor; auto.
        rewrite Forall_forall in *. intros y Hy.
        destruct (before leb y t) eqn:E'; auto.
        rewrite (before_mono x y t (H2 _ Hy) E') in E. discriminate.
  Qed.

  Lemma below_all : forall t l, Forall (fun x => before leb x t = true) l -> below leb t l = length l.
  Proof. unfold below; induction 1; simpl; auto. rewrite H; simpl; auto. Qed.
  Lemma below_none : forall t l, Forall (fun x => before leb x t = false) l -> below leb t l = 0.
  Proof. unfold below; induction 1; simpl; auto. rewrite H; simpl; auto. Qed.

  Lemma sorted_ascending : forall l, StronglySorted le l <-> ascending leb l.
  Proof.
    unfold ascending; split.
    - induction 1; simpl; intros i j d Hij Hj; [lia|].
      destruct i, j; try lia.
      + apply leb_refl.
      + rewrite Forall_forall in H0. apply H0, nth_In. lia.
      + apply IHStronglySorted; lia.
    - induction l as [|x r IH]; intros H; constructor.
      + apply IH. intros i j d Hij Hj. apply (H (S i) (S j) d); simpl; lia.
      + rewrite Forall_forall. intros y Hy. destruct (In_nth _ _ x Hy) as (n & Hn & <-).
        apply (H 0 (S n) x); simpl; lia.
  Qed.

  (** indices of the entries of a sorted list before [t] *)
  Lemma filter_seq_shift : forall (f : nat -> bool) s n,
    filter f (seq (S s) n) = map S (filter (fun i => f (S i)) (seq s n)).
  Proof.
    intros f s n; revert s; induction n; intros; simpl; auto.
    destruct (f (S s)); simpl; rewrite IHn; auto.
  Qed.

  Lemma filter_seq_offset : forall (f : nat -> bool) k n,
    filter f (seq k n) = map (fun i => k + i) (filter (fun i => f (k + i)) (seq 0 n)).
  Proof.
    intros f k; revert f; induction k; intros f n; simpl.
    - rewrite map_id; auto.
    - rewrite filter_seq_shift, IHk, map_map. apply map_ext; auto.
  Qed.

  Lemma sorted_filter_seq : forall t d l, StronglySorted le l ->
    filter (fun i => before leb (nth i l d) t) (seq 0 (length l)) = seq 0 (below leb t l).
  Proof.
    intros t d l S. induction S as [|x r S IH F]; auto.
    cbn [length seq filter nth].
    rewrite filter_seq_shift. cbn [nth]. rewrite IH.
    unfold below. cbn [filter].
    destruct (before leb x t) eqn:E.
    - cbn [length seq]. rewrite <- seq_shift. reflexivity.
    - fold (below leb t r).
      assert (below leb t r = 0) as ->; auto.
      apply below_none. rewrite Forall_forall in *. intros y Hy.
      destruct (before leb y t) eqn:E'; auto.
      rewrite (before_mono x y t (F _ Hy) E') in E. discriminate.
  Qed.
End SortFacts.

Lemma gather_app {A} : forall (d : A) l p q, gather d l (p ++ q) = gather d l p ++ gather d l q.
Proof. intros; apply map_app. Qed.

Lemma gather_length {A} : forall (d : A) l p, length (gather d l p) = length p.
Proof. intros; apply map_length. Qed.

Lemma gather_seq {A} : forall (d : A) l, gather d l (seq 0 (length l)) = l.
Proof.
  induction l as [|x r IH]; auto.
  unfold gather in *. cbn [length seq map nth]. f_equal.
  rewrite <- seq_shift, map_map. exact IH.
Qed.

Lemma gather_perm {A} : forall (d : A) l p,
  Permutation p (seq 0 (length l)) -> Permutation (gather d l p) l.
Proof.
  intros. rewrite <- (gather_seq d l) at 2. apply Permutation_map; auto.
Qed.

Lemma roll1_snoc {B} : forall (l : list B) x, roll1 (l ++ [x]) = x :: l.
Proof. intros. unfold roll1. rewrite rev_app_distr. simpl. rewrite rev_involutive; auto. Qed.

(** combining a list with its roll = combining each entry with its predecessor *)
Fixpoint adj {B C} (g : B -> B -> C) (prev : B) (l : list B) : list C :=
  match l with
  | [] => []
  | x :: r => g x prev :: adj g x r
  end.

Lemma adj_combine {B C} (g : B -> B -> C) : forall l prev y,
  map (fun q : B * B => g (fst q) (snd q)) (combine (l ++ [y]) (prev :: l)) = adj g prev (l ++ [y]).
Proof.
  induction l as [|x r IH]; intros; simpl; auto.
  f_equal. apply IH.
Qed.

Lemma roll_adj {B C} (g : B -> B -> C) : forall l d,
  map (fun q : B * B => g (fst q) (snd q)) (combine l (roll1 l)) = adj g (last l d) l.
Proof.
  intros l d. destruct l as [|x r] using rev_ind; auto.
  rewrite roll1_snoc, last_last. apply adj_combine.
Qed.

Lemma adj_app {B C} (g : B -> B -> C) : forall l l' prev,
  adj g prev (l ++ l') = adj g prev l ++ adj g (last l prev) l'.
Proof.
  induction l as [|x r IH]; intros; simpl; auto.
  f_equal. rewrite IH. f_equal. f_equal.
  destruct r; auto. simpl. clear. revert b. induction r; simpl; auto.
Qed.

Definition count_true (l : list bool) : nat := length (filter (fun b => b) l).

Lemma last_cons_default {B} : forall (r : list B) x prev, last (x :: r) prev = last r x.
Proof.
  induction r as [|y r IH]; intros; auto.
  change (last (y :: r) prev = last (y :: r) x). rewrite !IH; auto.
Qed.

Lemma count_true_xor : forall l prev,
  Nat.odd (count_true (adj xorb prev l)) = xorb prev (last l prev).
Proof.
  induction l as [|x r IH]; intros prev.
  - simpl. rewrite xorb_nilpotent; auto.
  - rewrite last_cons_default. cbn [adj]. unfold count_true in *. cbn [filter].
    destruct (xorb x prev) eqn:E; cbn [length]; rewrite ?Nat.odd_succ, <- ?Nat.negb_odd, IH;
    destruct x, prev, (last r _); simpl in *; congruence.
Qed.

Lemma adj_length {B C} (g : B -> B -> C) : forall l prev, length (adj g prev l) = length l.
Proof. induction l; simpl; auto. Qed.

Fixpoint no_two (prev : bool) (l : list bool) : Prop :=
  match l with [] => True | x :: r => (prev && x)%bool = false /\ no_two x r end.

Lemma adj_or_xor : forall l prev, no_two prev l -> adj orb prev l = adj xorb prev l.
Proof.
  induction l as [|x r IH]; intros prev H; simpl; auto.
  destruct H as [H1 H2]. rewrite IH by auto. destruct prev, x; simpl in *; congruence.
Qed.

(** sums *)
Definition zsum (l : list Z) : Z := fold_right Z.add 0%Z l.
Lemma zsum_app : forall l l', zsum (l ++ l') = (zsum l + zsum l')%Z.
Proof. induction l; simpl; intros; auto. rewrite IHl. lia. Qed.
Lemma zsum_perm : forall l l', Permutation l l' -> zsum l = zsum l'.
Proof. induction 1; simpl; auto; lia. Qed.

Lemma cumsum_from_app : forall l l' a,
  cumsum_from a (l ++ l') = cumsum_from a l ++ cumsum_from (a + zsum l)%Z l'.
Proof.
  induction l as [|x r IH]; intros; simpl.
  - rewrite Z.add_0_r; auto.
  - rewrite IH. do 2 f_equal. f_equal. lia.
Qed.
Lemma cumsum_from_length : forall l a, length (cumsum_from a l) = length l.
Proof. induction l; simpl; auto. Qed.
Lemma cumsum_last : forall l a, last (cumsum_from a l) a = (a + zsum l)%Z.
Proof.
  induction l as [|x r IH]; intros; simpl zsum.
  - simpl; lia.
  - cbn [cumsum_from]. rewrite last_cons_default, IH. lia.
Qed.
Lemma last_map {B C} (f : B -> C) : forall l d, last (map f l) (f d) = f (last l d).
Proof.
  induction l as [|x r IH]; intros; auto.
  cbn [map]. rewrite !last_cons_default. apply IH.
Qed.
Lemma cumsum_map_add : forall k l a,
  map (fun z => (z + k)%Z) (cumsum_from a l) = cumsum_from (a + k) l.
Proof.
  induction l as [|x r IH]; intros; simpl; auto.
  rewrite IH. f_equal; [lia|]. f_equal. lia.
Qed.

(** The executable stable argsort meets the specification. *)
Section StableArgsort.
  Context {A : Type}.
  Variable leb : A -> A -> bool.
  Hypothesis leb_total : forall a b, leb a b = true \/ leb b a = true.
  Hypothesis leb_trans : forall a b c, leb a b = true -> leb b c = true -> leb a c = true.

  Lemma insert_idx_perm : forall d l i p, Permutation (insert_idx leb d l i p) (i :: p).
  Proof.
    induction p as [|j r IH]; simpl; auto. destruct (leb _ _); auto.
    rewrite IH. apply perm_swap.
  Qed.

  Lemma insert_idx_gather : forall d l i p,
    gather d l (insert_idx leb d l i p) = insert_by leb (nth i l d) (gather d l p).
  Proof.
    induction p as [|j r IH]; simpl; auto.
    destruct (leb (nth i l d) (nth j l d)); simpl; auto. f_equal; auto.
  Qed.

  Lemma argsort_stable_spec : forall d, argsort_spec leb d (argsort_stable leb d).
  Proof.
    intros d l. unfold argsort_stable. generalize (seq 0 (length l)) as q. intro q. split.
    - induction q; simpl; auto. rewrite insert_idx_perm; auto.
    - induction q; simpl; [constructor|]. rewrite insert_idx_gather. apply insert_sorted; auto.
  Qed.
End StableArgsort.
