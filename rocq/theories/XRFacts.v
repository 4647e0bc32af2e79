(** * XRFacts: lemmas about XR *)
From Coq Require Import Reals List Bool Lra Permutation Sorted.
Import ListNotations.
From Verif Require Import XR Arr ArrFacts SpecCsg.
Open Scope R_scope.

Lemma rltb_true : forall a b, rltb a b = true <-> a < b.
Proof. intros; unfold rltb; destruct (Rlt_dec a b); split; intros; try congruence; lra. Qed.
Lemma rltb_false : forall a b, rltb a b = false <-> b <= a.
Proof. intros; unfold rltb; destruct (Rlt_dec a b); split; intros; try congruence; lra. Qed.
Lemma rleb_true : forall a b, rleb a b = true <-> a <= b.
Proof. intros; unfold rleb; destruct (Rle_dec a b); split; intros; try congruence; lra. Qed.
Lemma rleb_false : forall a b, rleb a b = false <-> b < a.
Proof. intros; unfold rleb; destruct (Rle_dec a b); split; intros; try congruence; lra. Qed.
Lemma reqb_true : forall a b, reqb a b = true <-> a = b.
Proof. intros; unfold reqb; destruct (Req_EM_T a b); split; intros; congruence. Qed.
Lemma reqb_false : forall a b, reqb a b = false <-> a <> b.
Proof. intros; unfold reqb; destruct (Req_EM_T a b); split; intros; congruence. Qed.

(** Case analysis on every real comparison in the goal *)
Ltac rcases :=
  repeat match goal with
  | |- context [rltb ?a ?b] =>
      let E := fresh "E" in destruct (rltb a b) eqn:E; [apply rltb_true in E | apply rltb_false in E]
  | |- context [rleb ?a ?b] =>
      let E := fresh "E" in destruct (rleb a b) eqn:E; [apply rleb_true in E | apply rleb_false in E]
  | |- context [reqb ?a ?b] =>
      let E := fresh "E" in destruct (reqb a b) eqn:E; [apply reqb_true in E | apply reqb_false in E]
  end.

Ltac rhyps :=
  repeat match goal with
  | H : rltb _ _ = true |- _ => apply rltb_true in H
  | H : rltb _ _ = false |- _ => apply rltb_false in H
  | H : rleb _ _ = true |- _ => apply rleb_true in H
  | H : rleb _ _ = false |- _ => apply rleb_false in H
  | H : reqb _ _ = true |- _ => apply reqb_true in H
  | H : reqb _ _ = false |- _ => apply reqb_false in H
  | H : (_ && _)%bool = true |- _ => apply andb_true_iff in H; destruct H
  end.

Lemma xsle_total : forall a b, xsle a b = true \/ xsle b a = true.
Proof.
  intros [x| | |] [y| | |]; simpl; auto. rcases; auto. lra.
Qed.
Lemma xsle_trans : forall a b c, xsle a b = true -> xsle b c = true -> xsle a c = true.
Proof.
  intros [x| | |] [y| | |] [z| | |]; simpl; auto; try discriminate.
  intros; rhyps. apply rleb_true; lra.
Qed.
Lemma xsle_antisym : forall a b, xsle a b = true -> xsle b a = true -> a = b.
Proof.
  intros [x| | |] [y| | |]; simpl; auto; try discriminate.
  intros; rhyps. f_equal; lra.
Qed.
Lemma xsle_refl : forall a, xsle a a = true.
Proof. intro a; destruct (xsle_total a a); auto. Qed.

Lemma xsle_order : total_order xsle.
Proof. repeat split; [apply xsle_total|apply xsle_trans|apply xsle_antisym]. Qed.

Lemma before_fin : forall x t, before xsle (Fin x) (Fin t) = rltb x t.
Proof. intros. unfold before; simpl. rcases; auto; lra. Qed.
Lemma before_pinf : forall t, before xsle PInf (Fin t) = false.
Proof. reflexivity. Qed.
Lemma before_minf : forall t, before xsle MInf (Fin t) = true.
Proof. reflexivity. Qed.
Lemma before_nan : forall t, before xsle NaN (Fin t) = false.
Proof. reflexivity. Qed.

Lemma atol_pos : 0 < atol.
Proof. unfold atol; lra. Qed.
Lemma rtol_pos : 0 < rtol.
Proof. unfold rtol; lra. Qed.

Lemma isclose0_true : forall x, isclose x 0 = true <-> Rabs x <= atol.
Proof.
  intro x. unfold isclose. rewrite rleb_true, Rabs_R0, Rminus_0_r. split; lra.
Qed.
Lemma isclose0_false : forall x, isclose x 0 = false <-> atol < Rabs x.
Proof.
  intro x. unfold isclose. rewrite rleb_false, Rabs_R0, Rminus_0_r. split; lra.
Qed.
Lemma isclose0_0 : isclose 0 0 = true.
Proof. apply isclose0_true. rewrite Rabs_R0. pose proof atol_pos; lra. Qed.
Lemma isclose_false_neq : forall x, isclose x 0 = false -> x <> 0.
Proof. intros x H ->. rewrite isclose0_0 in H. discriminate. Qed.

Lemma isclose_refl : forall x, isclose x x = true.
Proof.
  intro x. unfold isclose. apply rleb_true. rewrite Rminus_diag_eq, Rabs_R0 by auto.
  pose proof atol_pos; pose proof rtol_pos; pose proof (Rabs_pos x). nra.
Qed.

Lemma xdiv_fin : forall a b, b <> 0 -> xdiv (Fin a) (Fin b) = Fin (a / b).
Proof. intros; simpl. destruct (Req_EM_T b 0); [contradiction|auto]. Qed.

Lemma sort2_fin : forall a b, sort2 (Fin a, Fin b) = (Fin (Rmin a b), Fin (Rmax a b)).
Proof.
  intros. unfold sort2; simpl. rcases.
  - rewrite Rmin_left, Rmax_right; auto.
  - rewrite Rmin_right, Rmax_left; auto; lra.
Qed.

Lemma xmax_fin : forall a b, xmax (Fin a) (Fin b) = Fin (Rmax a b).
Proof. intros; simpl. rcases; [rewrite Rmax_right|rewrite Rmax_left]; auto; lra. Qed.
Lemma xmin_fin : forall a b, xmin (Fin a) (Fin b) = Fin (Rmin a b).
Proof. intros; simpl. rcases; [rewrite Rmin_left|rewrite Rmin_right]; auto; lra. Qed.

Lemma xr_eq_dec : forall a b : xr, {a = b} + {a <> b}.
Proof. intros [x| | |] [y| | |]; try (left; congruence); try (right; congruence).
  destruct (Req_EM_T x y); [left|right]; congruence. Defined.
