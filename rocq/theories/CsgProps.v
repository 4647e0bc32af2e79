(** * CsgProps: the hit-array lemmas in the form used by the property theorems *)
From Coq Require Import Reals List Bool ZArith Permutation Sorted Lra Lia.
Import ListNotations.
From Verif Require Import XR XRFacts Arr ArrFacts Csg SpecCsg CsgFacts.
Open Scope R_scope.

(** every behaviour of np.argsort on float columns *)
Definition argsort_ok (asort : list xr -> list nat) : Prop := argsort_spec xsle PInf asort.

Lemma argsort_ok_stable : argsort_ok (argsort_stable xsle PInf).
Proof. apply argsort_stable_spec; [apply xsle_total|apply xsle_trans]. Qed.

Lemma asc_sorted : forall l, ascending xsle l -> StronglySorted (fun a b => xsle a b = true) l.
Proof. intros. apply sorted_ascending; auto. apply xsle_total. Qed.
Lemma sorted_asc : forall l, StronglySorted (fun a b => xsle a b = true) l -> ascending xsle l.
Proof. intros. apply sorted_ascending; auto. apply xsle_total. Qed.

Lemma even_odd_false : forall n, Nat.Even n -> Nat.odd n = false.
Proof. intros n H. rewrite <- Nat.negb_even. apply Nat.even_spec in H. rewrite H; auto. Qed.

Lemma xr_array_csg_inside : forall asort, argsort_ok asort ->
  forall op l1 l2 t, ascending xsle l1 -> ascending xsle l2 ->
  Nat.Even (length l1) -> Nat.Even (length l2) -> t <> NaN ->
  inside_at xsle t (array_csg xsle PInf asort l1 l2 op)
  = bool_op op (inside_at xsle t l1) (inside_at xsle t l2).
Proof.
  intros asort AS op l1 l2 t H1 H2 E1 E2 N.
  apply array_csg_inside; auto using xsle_total, asc_sorted, even_odd_false; try exact xsle_trans.
  destruct t; auto; congruence.
Qed.

Lemma xr_array_csg_shape : forall asort, argsort_ok asort ->
  forall op l1 l2, ascending xsle l1 -> ascending xsle l2 ->
  Nat.Even (length l1) -> Nat.Even (length l2) ->
  let out := array_csg xsle PInf asort l1 l2 op in
  length out = (length l1 + length l2)%nat /\
  ascending xsle out /\
  (forall v, v <> PInf ->
     (count_occ xr_eq_dec out v <= count_occ xr_eq_dec l1 v + count_occ xr_eq_dec l2 v)%nat) /\
  (Nat.Even (below xsle PInf l1) -> Nat.Even (below xsle PInf l2) -> Nat.Even (below xsle PInf out)).
Proof.
  intros asort AS op l1 l2 H1 H2 E1 E2 out. split; [|split; [|split]].
  - apply array_csg_length; auto.
  - apply sorted_asc. apply array_csg_sorted; auto using xsle_total. exact xsle_trans.
  - intros v Hv. apply array_csg_count; auto.
  - intros P1 P2. assert (I : inside_at xsle PInf out = false).
    { unfold out. rewrite xr_array_csg_inside by (auto; discriminate).
      unfold inside_at. rewrite (even_odd_false _ P1), (even_odd_false _ P2). destruct op; reflexivity. }
    unfold inside_at in I. apply Nat.even_spec. rewrite <- Nat.negb_odd, I. auto.
Qed.

Lemma asc2 : forall a b, a <= b -> ascending xsle [Fin a; Fin b].
Proof.
  intros a b H. apply sorted_asc. repeat constructor. simpl. apply rleb_true; auto.
Qed.
