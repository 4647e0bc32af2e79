(** * ImageFacts: rows reflected by any number of flat mirrors *)
From Coq Require Import Reals Lra Lia List Bool ZArith Psatz.
Import ListNotations.
From Verif Require Import XR XRFacts Arr Lin LinFacts Ops OpsFacts SpecOptics Prim Csg Surf SpecGeom SpecTree CsgProps World SpecWorld Tracer SpecTrace
  TraceFacts5 TraceFacts7 TraceProps MirrorTrace SpecImages.
Open Scope R_scope.

Ltac vec := unfold image_of, turned_by, vsub, vadd, vopp, vscale, vdot; cbn [vx vy vz vw fst snd].

Lemma image_line : forall p q L d, facet_ok p -> vdot (fst p) (vadd q (vscale L d)) = snd p ->
  vadd q (vscale L d) = vadd (image_of q p) (vscale L (turned_by d p)).
Proof.
  intros ([a b c w], k) [q1 q2 q3 q4] L [d1 d2 d3 d4] (U & W) E. cbn [fst snd vw] in *. subst w.
  revert E. vec. intro E. f_equal; rewrite <- E; ring.
Qed.
Lemma turned_mirrored : forall p v d n, facet_ok p -> n = fst p \/ n = vopp (fst p) -> mirrored v d n -> d = turned_by v p.
Proof.
  intros p v d n (U & W) H M. destruct H as [-> | ->].
  - rewrite (mirrored_reflect _ _ _ U M). unfold turned_by. rewrite (vdot_comm v). auto.
  - assert (U' : unit (vopp (fst p))) by (revert U; unfold unit; rewrite vdot_opp_l, vdot_opp_r; intros; lra).
    rewrite (mirrored_reflect _ _ _ U' M). destruct (fst p) as [a b c e] eqn:E, v as [v1 v2 v3 v5]. vec. rewrite E; cbn [vx vy vz vw]. f_equal; ring.
Qed.
Lemma unit_scale_norm : forall d c, unit d -> 0 <= c -> vnorm (vscale c d) = c.
Proof.
  intros d c U C. unfold vnorm. rewrite vdot_scale_l, vdot_scale_r, U. replace (c * (c * 1)) with (c * c) by ring. apply sqrt_square; auto.
Qed.

Lemma one_of_id : forall (l : list surf) a b, NoDup (map s_id l) -> In a l -> In b l -> s_id a = s_id b -> a = b.
Proof.
  induction l as [|x l IH]; intros a b ND A B E; [destruct A|]. inversion ND as [|? ? N1 N2]; subst.
  destruct A as [<- | A], B as [<- | B]; auto.
  - exfalso. apply N1. rewrite E. apply in_map; auto.
  - exfalso. apply N1. rewrite <- E. apply in_map; auto.
Qed.

Section Run.
Variables (asort : list xr -> list nat) (AS : argsort_ok asort) (gen : loc -> nat -> list col) (h : heap) (t t' : tracer) (comps : list shape) (fuel : nat).
Hypothesis PR : proper gen h t comps.
Hypothesis TR : trace asort h gen fuel t = TOk t'.

Lemma next_off_mirror : forall i j w w' p, facet_ok p ->
  nth_error (rows_with_id i (f_rows (get_results t'))) j = Some w -> nth_error (rows_with_id i (f_rows (get_results t'))) (S j) = Some w' ->
  off_mirror (flat_map surface_ids comps) p w -> row_idx w' = row_idx w /\ row_tilt w' = turned_by (row_tilt w) p.
Proof.
  intros i j w w' p F N N' (s & IN & ID & MT & PL & WN).
  destruct (proper_bounces asort AS gen h t comps fuel t' PR TR i _ eq_refl) as (_ & B & _).
  destruct (B j w w' N N') as (s' & n & IN' & ID' & WN' & U & L).
  assert (s' = s).
  { destruct PR as ((_ & _ & ND) & _). eapply one_of_id; eauto. congruence. }
  subst s'. rewrite MT in L. destruct L as (L1 & L2). split; auto.
  apply (turned_mirrored p _ _ n F); auto. destruct WN as [WN | WN]; rewrite WN in WN'; injection WN' as <-; auto.
Qed.
Lemma next_reach : forall i j w w', 
  nth_error (rows_with_id i (f_rows (get_results t'))) j = Some w -> nth_error (rows_with_id i (f_rows (get_results t'))) (S j) = Some w' ->
  exists c, 0 < c /\ here (row_end w') = vadd (here (row_end w)) (vscale c (row_tilt w')) /\ c = vnorm (vsub (here (row_end w')) (here (row_end w))).
Proof.
  intros i j w w' N N'. destruct (proper_legs asort AS gen h t comps fuel t' PR TR) as (A & B).
  destruct (B i j w w' N N') as (ST & _).
  assert (IN : In w' (f_rows (get_results t'))) by (apply (in_rows_with_id i); eapply nth_error_In; eauto).
  destruct (A w' IN) as (U & W & c & C & EN & _). exists (ray_offset_value + c).
  assert (O : 0 < ray_offset_value) by (unfold ray_offset_value; lra).
  assert (E : here (row_end w') = vadd (here (row_end w)) (vscale (ray_offset_value + c) (row_tilt w'))).
  { rewrite EN, ST. revert W. unfold here, vset_w. destruct (row_end w) as [e1 e2 e3 e4], (row_tilt w') as [d1 d2 d3 d4]. vec. intros ->. f_equal; ring. }
  split; [lra|]. split; [exact E|]. rewrite E.
  replace (vsub (vadd (here (row_end w)) (vscale (ray_offset_value + c) (row_tilt w'))) (here (row_end w))) with (vscale (ray_offset_value + c) (row_tilt w')).
  - symmetry. apply unit_scale_norm; [auto|lra].
  - destruct (here (row_end w)) as [e1 e2 e3 e4], (row_tilt w') as [d1 d2 d3 d4]. vec. f_equal; ring.
Qed.

Lemma images_from : forall i ps ws before w w0 after q L,
  rows_with_id i (f_rows (get_results t')) = before ++ w0 :: ws ++ after ->
  Forall facet_ok ps -> w = last ws w0 -> length ps = length ws ->
  (forall k p u, nth_error ps k = Some p -> nth_error (w0 :: ws) k = Some u -> off_mirror (flat_map surface_ids comps) p u) ->
  here (row_end w0) = vadd q (vscale L (row_tilt w0)) ->
  row_idx w = row_idx w0 /\ row_tilt w = fold_left turned_by ps (row_tilt w0) /\
  here (row_end w) = vadd (fold_left image_of ps q) (vscale (L + walk (here (row_end w0)) (map (fun u => here (row_end u)) ws)) (row_tilt w)).
Proof.
  intros i. induction ps as [|p ps IH]; intros ws before w w0 after q L R F E LN OM Q.
  - destruct ws; [|discriminate]. cbn in E. subst w. cbn. split; [auto|]. split; [auto|]. rewrite Rplus_0_r. auto.
  - destruct ws as [|w1 ws]; [discriminate|].
    assert (N0 : nth_error (rows_with_id i (f_rows (get_results t'))) (length before) = Some w0).
    { rewrite R, nth_error_app2, Nat.sub_diag by lia. reflexivity. }
    assert (N1 : nth_error (rows_with_id i (f_rows (get_results t'))) (S (length before)) = Some w1).
    { rewrite R, nth_error_app2 by lia. replace (S (length before) - length before)%nat with 1%nat by lia. reflexivity. }
    inversion F as [|? ? F1 F2]; subst.
    pose proof (OM 0%nat p w0 eq_refl eq_refl) as OM0.
    destruct (next_off_mirror i _ _ _ p F1 N0 N1 OM0) as (I1 & T1).
    destruct (next_reach i _ _ _ N0 N1) as (c & C & E1 & EC).
    assert (PL : vdot (fst p) (here (row_end w0)) = snd p) by (destruct OM0 as (? & _ & _ & _ & X & _); exact X).
    assert (Q1 : here (row_end w1) = vadd (image_of q p) (vscale (L + c) (row_tilt w1))).
    { rewrite E1, Q, T1. rewrite Q in PL. rewrite (image_line p q L _ F1 PL).
      destruct (image_of q p) as [a1 a2 a3 a4], (turned_by (row_tilt w0) p) as [b1 b2 b3 b4]. vec. f_equal; ring. }
    destruct (IH ws (before ++ [w0]) (last (w1 :: ws) w0) w1 after (image_of q p) (L + c)) as (A & B & D); auto.
    { rewrite R, <- app_assoc. reflexivity. }
    { clear. revert w1. induction ws as [|x ws IH]; intro w1; auto. change (last (w1 :: x :: ws) w0) with (last (x :: ws) w0).
      rewrite (IH x). change (last (x :: ws) w1) with (match ws with [] => x | _ => last ws w1 end). destruct ws; auto.
      clear. revert r. induction ws as [|y ws IH]; intro r; auto. change (last (r :: y :: ws) x) with (last (y :: ws) x). change (last (r :: y :: ws) w1) with (last (y :: ws) w1). apply IH. }
    { intros k p' u K U. apply (OM (S k)); auto. }
    split; [congruence|]. cbn [fold_left]. rewrite <- T1. split; [exact B|]. rewrite D at 1. f_equal. f_equal.
    cbn [map walk]. rewrite <- EC. ring.
Qed.
End Run.
