(** * FlOpticsExamples: slanted rays at a mirror and at a glass, in binary64 *)
From Coq Require Import Reals List Bool ZArith Permutation Lra Lia.
Import ListNotations.
From Flocq Require Import Core.
From Verif Require Import XR XRFacts Lin Fl SpecFl FlFacts FlProps FlBinary FlExamples SpecOptics SpecFlOptics FlOptics.
Open Scope R_scope.

Lemma fl_normalize_total : forall v, exists d, fl_normalize binary64 v d.
Proof. intro v. eexists. eexists. split; [|reflexivity]. exists (dot64 v v). split; [apply dot64_rdot|reflexivity]. Qed.
Lemma fl_reflect_total : forall v n, exists d, fl_reflect binary64 v n d.
Proof. intros v n. eexists. exists (dot64 v n). split; [apply dot64_rdot|reflexivity]. Qed.
Lemma fl_refract_total : forall v n n1 n2 n_global, exists d index, fl_refract binary64 v n n1 n2 n_global d index.
Proof.
  intros v n n1 n2 ng. destruct (fl_normalize_total v) as (v1 & N1).
  pose (cp := dot64 v1 n). pose (cn := dot64 v1 (vopp n)).
  pose (r := binary64 (n1 / (if rltb 0 cp then ng else n2))). pose (c1 := if rltb 0 cp then cp else cn).
  pose (rad := binary64 (1 - binary64 (binary64 (r * r) * binary64 (1 - binary64 (c1 * c1))))).
  pose (nn := if rltb 0 cp then vopp n else n).
  destruct (fl_normalize_total (if rltb 0 rad
      then vround binary64 (vadd (vround binary64 (vscale r v1)) (vround binary64 (vscale (binary64 (binary64 (r * c1) - binary64 (sqrt (Rmax 0 rad)))) nn)))
      else vround binary64 (vadd v1 (vround binary64 (vscale (binary64 (2 * c1)) nn))))) as (d & D).
  exists d, (if rltb 0 rad then (if rltb 0 cp then ng else n2) else n1). exists v1, cp, cn.
  split; [exact N1|]. split; [apply dot64_rdot|]. split; [apply dot64_rdot|]. split; [exact D|reflexivity].
Qed.

Definition down_right : v4 := vector 1 0 (-1).
Lemma down_right_sizeable : sizeable u64 eta64 down_right.
Proof.
  unfold sizeable. replace (vdot down_right down_right) with 2 by (unfold vdot, down_right, vector; cbn; ring). split; [lra|].
  pose proof u64_small. pose proof eta64_small. lra.
Qed.
Lemma down_right_norm : vnorm down_right <= 2.
Proof.
  unfold vnorm. replace (vdot down_right down_right) with 2 by (unfold vdot, down_right, vector; cbn; ring).
  apply le_of_sqr; [lra|]. rewrite sqrt_sqrt by lra. lra.
Qed.
Lemma normal_axis : fl_normal binary64 (up_z 1) (up_z 1).
Proof. exists (up_z 1), 1. split; [apply normalize_axis; auto|]. split; auto. rewrite scale_axis. f_equal. ring. Qed.
(** The ray is bent towards the normal *)
Lemma slanted_glass : exists d index, fl_refract binary64 down_right (up_z 1) 1 (3 / 2) 1 d index.
Proof. apply fl_refract_total. Qed.
Lemma slanted_mirror : exists d, fl_reflect binary64 down_right (up_z 1) d.
Proof. apply fl_reflect_total. Qed.
