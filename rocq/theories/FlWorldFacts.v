(** * FlWorldFacts: the error of one movement *)
From Coq Require Import Reals List Bool ZArith Permutation Lra Lia Psatz.
Import ListNotations.
From Verif Require Import XR XRFacts Lin LinFacts World SpecWorld WorldFacts3 Fl FlHits SpecFl FlFacts FlProps FlWorld SpecFlWorld.
Open Scope R_scope.

(** ** Sums with at most two terms other than 0 *)
Fixpoint terms (l : list (R * R)) : nat :=
  match l with [] => 0%nat | q :: r => if Req_EM_T (fst q * snd q) 0 then terms r else S (terms r) end.
Lemma terms_app : forall a b, terms (a ++ b) = (terms a + terms b)%nat.
Proof. induction a as [|q a IH]; intro b; simpl; auto. destruct Req_EM_T; rewrite IH; auto. Qed.
Lemma terms_perm : forall a b, Permutation a b -> terms a = terms b.
Proof. induction 1; simpl; auto; try congruence; repeat destruct Req_EM_T; congruence. Qed.
Lemma terms_none : forall l, terms l = 0%nat -> rsum l = 0.
Proof. induction l as [|q l IH]; simpl; auto. destruct Req_EM_T as [E|N]; [intro H; rewrite (IH H), E; ring|discriminate]. Qed.

Section Exact.
  Variable rnd : R -> R.
  Hypothesis R0' : rnd 0 = 0.
  Hypothesis RI : forall x, rnd (rnd x) = rnd x.
  Definition numbers (l : list (R * R)) : Prop := Forall (fun q => rnd (fst q * snd q) = fst q * snd q) l.
  Lemma terms_one : forall l, (terms l <= 1)%nat -> numbers l -> rnd (rsum l) = rsum l.
  Proof.
    induction l as [|q l IH]; intros H N; simpl; [exact R0'|]. inversion N; subst. simpl in H. destruct Req_EM_T as [E|NE].
    - rewrite E, Rplus_0_l. auto.
    - rewrite (terms_none l) by lia. rewrite Rplus_0_r. auto.
  Qed.
  Lemma rdot_two : forall l x, rdot rnd l x -> numbers l -> (terms l <= 2)%nat -> x = rnd (rsum l).
  Proof.
    induction 1 as [a b|l1 l2 l x y P _ I1 _ I2|l l' a b x P _ IH]; intros N T.
    - simpl. rewrite Rplus_0_r. reflexivity.
    - rewrite (terms_perm _ _ P), terms_app in T. unfold numbers in N. rewrite (Permutation_Forall_iff _ _ _ P) in N || (apply (Permutation_Forall P) in N).
      apply Forall_app in N. destruct N as (N1 & N2). rewrite (rsum_perm _ _ P), rsum_app.
      specialize (I1 N1 ltac:(lia)). specialize (I2 N2 ltac:(lia)). subst x y.
      destruct (le_lt_dec 2 (terms l1)) as [A|A]; [rewrite (terms_none l2), R0', !Rplus_0_r by lia; apply RI|].
      destruct (le_lt_dec 2 (terms l2)) as [B|B]; [rewrite (terms_none l1), R0', !Rplus_0_l by lia; apply RI|].
      rewrite !terms_one by (auto; lia). reflexivity.
    - rewrite (terms_perm _ _ P) in T. apply (Permutation_Forall P) in N. inversion N as [|? ? N1 N2]; subst.
      rewrite (rsum_perm _ _ P). cbn [rsum fold_right]. fold (rsum l'). simpl in T. cbn [fst snd] in *.
      assert (T' : (terms l' <= 2)%nat) by (destruct Req_EM_T in T; lia). rewrite (IH N2 T').
      destruct (le_lt_dec 2 (terms l')) as [A|A].
      + destruct (Req_EM_T (a * b) 0) as [E|]; [|lia]. rewrite E, !Rplus_0_l. apply RI.
      + rewrite terms_one by (auto; lia). reflexivity.
  Qed.
  Lemma rdot_one : forall l x, rdot rnd l x -> numbers l -> (terms l <= 1)%nat -> x = rsum l.
  Proof. intros l x H N T. rewrite (rdot_two _ _ H N) by lia. apply terms_one; auto. Qed.
End Exact.

(** ** Images under matrices of movements *)
Definition flat (v : v4) : v4 := vset_w v 0.
Definition nums (rnd : R -> R) (v : v4) : Prop := rnd (vx v) = vx v /\ rnd (vy v) = vy v /\ rnd (vz v) = vz v /\ rnd (vw v) = vw v.
Definition shift_mat (x y z : R) : mat := M4 (V4 1 0 0 x) (V4 0 1 0 y) (V4 0 0 1 z) (V4 0 0 0 1).
Ltac count := cbn [terms pairs coords combine fst snd vx vy vz vw point vector]; repeat (let NE := fresh in destruct Req_EM_T as [?|NE]; try (exfalso; apply NE; ring)); lia.

Section Images.
  Variable rnd : R -> R.
  Hypothesis LN : leaves_numbers rnd.
  Let R0' : rnd 0 = 0 := proj1 LN.
  Let R1' : rnd 1 = 1 := proj1 (proj2 LN).
  Let RI : forall x, rnd (rnd x) = rnd x := proj2 (proj2 LN).

  Ltac numbering := repeat constructor; cbn [fst snd]; rewrite ?Rmult_0_l, ?Rmult_0_r, ?Rmult_1_l, ?Rmult_1_r; auto.
  Lemma bottom_row : forall v x, rdot rnd (pairs (V4 0 0 0 1) v) x -> rnd (vw v) = vw v -> x = vw v.
  Proof.
    intros [a b c d] x H N. cbn [vw] in *. rewrite (rdot_one rnd R0' RI _ _ H); [unfold pairs, coords, rsum; cbn; ring| |].
    - numbering.
    - count.
  Qed.
  Lemma image_numbers : forall m v v', fl_image rnd m v v' -> nums rnd v'.
  Proof.
    assert (X : forall l x, rdot rnd l x -> rnd x = x) by (intros l x H; destruct H; apply RI).
    intros m v v' (A & B & C & D). repeat split; eauto.
  Qed.
  (** a unit vector: one column of the matrix, exactly *)
  Lemma image_axis : forall m v', nums rnd (row0 m) -> nums rnd (row1 m) -> nums rnd (row2 m) -> nums rnd (row3 m) ->
    (fl_image rnd m (point 0 0 0) v' -> v' = row3 (mtrans m)) /\ (fl_image rnd m (vector 0 0 1) v' -> v' = row2 (mtrans m)).
  Proof.
    intros [r0 r1 r2 r3] v' N0 N1 N2 N3; cbn [row0 row1 row2 row3] in *.
    assert (X : forall r x, nums rnd r -> rdot rnd (pairs r (point 0 0 0)) x -> x = vw r).
    { intros [a b c d] x (A & B & C & D) H. cbn [vx vy vz vw] in *. rewrite (rdot_one rnd R0' RI _ _ H); [unfold pairs, coords, rsum; cbn; ring| |].
      - numbering.
      - count. }
    assert (Y : forall r x, nums rnd r -> rdot rnd (pairs r (vector 0 0 1)) x -> x = vz r).
    { intros [a b c d] x (A & B & C & D) H. cbn [vx vy vz vw] in *. rewrite (rdot_one rnd R0' RI _ _ H); [unfold pairs, coords, rsum; cbn; ring| |].
      - numbering.
      - count. }
    split; intros (H0 & H1 & H2 & H3); apply v4_eq; cbn [mtrans row2 row3 vx vy vz vw]; eauto.
  Qed.
  (** ** a move: one rounding of the place, none of the directions *)
  Lemma move_image : forall x y z v v', rnd x = x -> rnd y = y -> rnd z = z -> nums rnd v -> fl_image rnd (shift_mat x y z) v v' ->
    (vw v = 0 -> v' = v) /\ (vw v = 1 -> v' = V4 (rnd (vx v + x)) (rnd (vy v + y)) (rnd (vz v + z)) 1).
  Proof.
    intros x y z [a b c d] v' X Y Z (NA & NB & NC & ND) (H0 & H1 & H2 & H3). cbn [vx vy vz vw shift_mat row0 row1 row2 row3] in *.
    assert (K : vw v' = d) by (apply (bottom_row (V4 a b c d)); auto).
    split; intros ->; apply v4_eq; cbn [vx vy vz vw]; auto.
    - rewrite (rdot_one rnd R0' RI _ _ H0); [unfold pairs, coords, rsum; cbn; ring|numbering|count].
    - rewrite (rdot_one rnd R0' RI _ _ H1); [unfold pairs, coords, rsum; cbn; ring|numbering|count].
    - rewrite (rdot_one rnd R0' RI _ _ H2); [unfold pairs, coords, rsum; cbn; ring|numbering|count].
    - rewrite (rdot_two rnd R0' RI _ _ H0); [f_equal; unfold pairs, coords, rsum; cbn; ring|numbering|count].
    - rewrite (rdot_two rnd R0' RI _ _ H1); [f_equal; unfold pairs, coords, rsum; cbn; ring|numbering|count].
    - rewrite (rdot_two rnd R0' RI _ _ H2); [f_equal; unfold pairs, coords, rsum; cbn; ring|numbering|count].
  Qed.

  (** ** a turn *)
  Variables u eta : R.
  Hypothesis U0 : 0 <= u.
  Hypothesis E0 : 0 <= eta.
  Hypothesis RW : rounds_within u eta rnd.
  Hypothesis U1 : u <= / 1000000.
  Definition turning (t : mat) : Prop :=
    row3 t = V4 0 0 0 1 /\ vw (row0 t) = 0 /\ vw (row1 t) = 0 /\ vw (row2 t) = 0 /\ vnorm (row0 t) <= 2 /\ vnorm (row1 t) <= 2 /\ vnorm (row2 t) <= 2.
  Lemma row_error : forall r v x, vw r = 0 -> vnorm r <= 2 -> rdot rnd (pairs r v) x -> Rabs (x - vdot r v) <= 10 * u * vnorm (flat v) + 8 * eta.
  Proof.
    intros r v x Z N H. pose proof (rdot_error rnd u eta U0 E0 RW _ _ H 4%nat eq_refl) as E. rewrite rsum_pairs in E.
    assert (A1 : asum (pairs r v) = asum (pairs r (flat v))).
    { unfold asum, pairs, coords, flat, vset_w; cbn. rewrite Z, !Rmult_0_l, Rabs_R0. reflexivity. }
    pose proof (asum_pairs r (flat v)) as A. rewrite <- A1 in A. pose proof (asum_nonneg (pairs r v)) as A0. pose proof (vnorm_nonneg (flat v)) as F0. pose proof (vnorm_nonneg r) as N0.
    pose proof (gam4 u U0 U1) as G. pose proof (gam_ge1 u U0 4) as G1. replace (2 * INR 4 - 1) with 7 in E by (simpl; ring).
    eapply Rle_trans; [exact E|]. apply Rplus_le_compat.
    - apply Rle_trans with ((5 * u) * (2 * vnorm (flat v))); [|right; ring]. apply Rmult_le_compat; try lra. eapply Rle_trans; [exact A|]. apply Rmult_le_compat_r; auto.
    - apply Rmult_le_compat_r; lra.
  Qed.
  Lemma turn_image : forall t v v', turning t -> rnd (vw v) = vw v -> fl_image rnd t v v' ->
    vw v' = vw v /\ vnorm (vsub v' (mapply t v)) <= 20 * u * vnorm (flat v) + 16 * eta.
  Proof.
    intros [r0 r1 r2 r3] v v' (B & Z0 & Z1 & Z2 & N0 & N1 & N2) NW (H0 & H1 & H2 & H3). cbn [row0 row1 row2 row3] in *. subst r3.
    pose proof (bottom_row _ _ H3 NW) as W. split; auto. pose proof (vnorm_nonneg (flat v)) as F0.
    assert (Q : 0 <= 10 * u * vnorm (flat v) + 8 * eta) by nra.
    assert (M : forall a b, a + -1 * b = a - b) by (intros; ring).
    pose proof (vnorm_entries (vsub v' (mapply (M4 r0 r1 r2 (V4 0 0 0 1)) v)) v 0 (10 * u * vnorm (flat v) + 8 * eta) (Rle_refl 0) Q) as V.
    eapply Rle_trans; [apply V|right; ring]; unfold vsub, vadd, vopp, vscale; cbn [vx vy vz vw mapply row0 row1 row2 row3]; rewrite M, Rmult_0_l, Rplus_0_l.
    - apply row_error; auto.
    - apply row_error; auto.
    - apply row_error; auto.
    - rewrite W. unfold vdot; cbn. replace (vw v - (0 * vx v + 0 * vy v + 0 * vz v + 1 * vw v)) with 0 by ring. rewrite Rabs_R0. exact Q.
  Qed.
End Images.
