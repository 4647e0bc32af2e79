(** * OpsExamples: concrete cases for the optics theorems *)
From Coq Require Import Reals List Bool Lra Psatz.
Import ListNotations.
From Verif Require Import XR XRFacts Lin LinFacts Ops SpecGeom SpecOptics OpsFacts.
Open Scope R_scope.

(** a ray at sine 3/5 onto a face with normal -x *)
Definition slanted : v4 := V4 4 3 0 0.
Definition facing : v4 := V4 (-1) 0 0 0.

Lemma facing_unit : unit facing.
Proof. unfold unit, facing, vdot; cbn [vx vy vz vw]; ring. Qed.
Lemma slanted_norm : vnorm slanted = 5.
Proof. unfold vnorm, slanted, vdot; cbn [vx vy vz vw]. replace (4 * 4 + 3 * 3 + 0 * 0 + 0 * 0) with (5 * 5) by ring. apply sqrt_square; lra. Qed.
Lemma slanted_hat : hat slanted = V4 (4/5) (3/5) 0 0.
Proof. unfold hat. rewrite slanted_norm. unfold slanted, vscale; cbn [vx vy vz vw]. apply v4_eq; cbn [vx vy vz vw]; field. Qed.
Lemma slanted_sine : vnorm (tangential (hat slanted) facing) = 3/5.
Proof.
  rewrite slanted_hat. unfold vnorm, tangential, facing, vsub, vadd, vopp, vscale, vdot; cbn [vx vy vz vw].
  match goal with |- sqrt ?x = _ => replace x with (3/5 * (3/5)) by field end. apply sqrt_square; lra.
Qed.
Lemma slanted_nonzero : vdot slanted slanted <> 0.
Proof. unfold slanted, vdot; cbn [vx vy vz vw]. lra. Qed.
Lemma slanted_next : forall n2 ng, next_index slanted facing n2 ng = n2.
Proof.
  intros. unfold next_index. destruct (Rlt_dec 0 (vdot slanted facing)) as [H|H]; auto.
  exfalso. unfold slanted, facing, vdot in H; cbn [vx vy vz vw] in H. lra.
Qed.
Lemma leaving_next : forall n2 ng, next_index (vopp slanted) facing n2 ng = ng.
Proof.
  intros. unfold next_index. destruct (Rlt_dec 0 (vdot (vopp slanted) facing)) as [H|H]; auto.
  exfalso. apply H. unfold slanted, facing, vopp, vscale, vdot; cbn [vx vy vz vw]. lra.
Qed.
Lemma into_glass : vdot slanted slanted <> 0 /\ unit facing /\
  1 * vnorm (tangential (hat slanted) facing) < next_index slanted facing (3/2) 1.
Proof. split; [apply slanted_nonzero|]. split; [apply facing_unit|]. rewrite slanted_next, slanted_sine. lra. Qed.
Lemma opp_hat : forall v, hat (vopp v) = vopp (hat v).
Proof.
  intro v. unfold hat. rewrite vnorm_opp. destruct v as [a b c d]. unfold vopp, vscale; cbn [vx vy vz vw].
  apply v4_eq; cbn [vx vy vz vw]; ring.
Qed.
Lemma out_of_diamond : vdot (vopp slanted) (vopp slanted) <> 0 /\ unit facing /\
  next_index (vopp slanted) facing (12/5) 1 <= 12/5 * vnorm (tangential (hat (vopp slanted)) facing).
Proof.
  split; [unfold slanted, vopp, vscale, vdot; cbn [vx vy vz vw]; lra|]. split; [apply facing_unit|].
  rewrite leaving_next, opp_hat, tangential_opp, vnorm_opp, slanted_sine. lra.
Qed.
Lemma there_and_back : unit (hat slanted) /\ unit facing /\ vdot (hat slanted) facing <> 0 /\
  1 * vnorm (tangential (hat slanted) facing) < next_index (hat slanted) facing (3/2) 1.
Proof.
  split; [apply vnormalize_hat, slanted_nonzero|]. split; [apply facing_unit|].
  assert (N : vdot (hat slanted) facing = - (4/5)).
  { rewrite slanted_hat. unfold facing, vdot; cbn [vx vy vz vw]. lra. }
  rewrite N. split; [lra|]. rewrite slanted_sine. unfold next_index. rewrite N. destruct (Rlt_dec 0 (- (4/5))); lra.
Qed.
Lemma spr_case : atol < Rabs 1 /\ root_of 1 (-3) 2 1.
Proof. split; [unfold atol; rewrite Rabs_right; lra|unfold root_of; ring]. Qed.
Lemma spr_case_neg : atol < Rabs (-1) /\ root_of (-1) 3 (-2) 1 /\
  ~ exists x y, root_of (-1) 3 (-2) x /\ root_of (-1) 3 (-2) y /\ x < 0 <= y.
Proof.
  split; [unfold atol; rewrite Rabs_left; lra|]. split; [unfold root_of; ring|].
  intros (x & y & Hx & Hy & H). unfold root_of in *. nra.
Qed.
