(** * SkewFacts: what rays keep where the surfaces are symmetric *)
From Coq Require Import Reals Lra Lia List Bool ZArith Psatz.
Import ListNotations.
From Verif Require Import XR XRFacts Arr Lin LinFacts Ops OpsFacts SpecOptics Prim Csg Surf SpecGeom SpecTree CsgProps World SpecWorld Tracer SpecTrace
  TraceFacts5 TraceFacts7 TraceProps MirrorTrace SpecImages ImageFacts SpecSkew.
Open Scope R_scope.

Lemma bounce_keeps : forall surfaces w w', bounce surfaces w w' -> exists s n, In s surfaces /\ s_id s = row_surf w /\ world_normal s (here (row_end w)) = Some n /\ unit n /\
  vscale (row_idx w) (tangential (row_tilt w) n) = vscale (row_idx w') (tangential (row_tilt w') n).
Proof.
  intros surfaces w w' (s & n & IN & ID & WN & U & L). exists s, n. do 4 (split; [assumption|]). destruct (s_mat s); try contradiction.
  - destruct L as (E & (_ & T)). rewrite E, T. reflexivity.
  - destruct L as (n2 & _ & A & B). cbv zeta in A, B. destruct (Rlt_le_dec (row_idx w * vnorm (tangential (row_tilt w) n)) (next_index (row_tilt w) n n2 world_index)) as [LT|LE].
    + destruct (A LT) as (-> & T & _). exact T.
    + destruct (B LE) as (E & (_ & T)). rewrite E, T. reflexivity.
Qed.
Lemma moment_along : forall q e p d c, moment q e (vadd p (vscale c d)) d = moment q e p d.
Proof. intros [q1 q2 q3 q4] [e1 e2 e3 e4] [p1 p2 p3 p4] [d1 d2 d3 d4] c. unfold moment. vec. ring. Qed.
Lemma moment_tangential : forall q e p a b n i k, moment q e p n = 0 -> vscale i (tangential a n) = vscale k (tangential b n) -> i * moment q e p a = k * moment q e p b.
Proof.
  intros q e p a b n i k M T.
  assert (L : forall v c, moment q e p (vscale c (tangential v n)) = c * moment q e p v - c * vdot v n * moment q e p n).
  { intros v c. unfold tangential. generalize (vdot v n). intro k'. destruct q as [q1 q2 q3 q4], e as [e1 e2 e3 e4], p as [p1 p2 p3 p4], v as [v1 v2 v3 v4], n as [n1 n2 n3 n4]. unfold moment. vec. ring. }
  pose proof (L a i) as LA. pose proof (L b k) as LB. rewrite T, LB, M in LA. lra.
Qed.
Lemma along_tangential : forall e a b n i k, vdot e n = 0 -> vscale i (tangential a n) = vscale k (tangential b n) -> i * vdot e a = k * vdot e b.
Proof.
  intros e a b n i k M T.
  assert (L : forall v c, vdot e (vscale c (tangential v n)) = c * vdot e v - c * vdot v n * vdot e n).
  { intros v c. unfold tangential. generalize (vdot v n). intro k'. destruct e as [e1 e2 e3 e4], v as [v1 v2 v3 v4], n as [n1 n2 n3 n4]. vec. ring. }
  pose proof (L a i) as LA. pose proof (L b k) as LB. rewrite T, LB, M in LA. lra.
Qed.

Section Run.
Variables (asort : list xr -> list nat) (AS : argsort_ok asort) (gen : loc -> nat -> list col) (h : heap) (t t' : tracer) (comps : list shape) (fuel : nat).
Hypothesis PR : proper gen h t comps.
Hypothesis TR : trace asort h gen fuel t = TOk t'.
Let surfaces := flat_map surface_ids comps.
Lemma next_keeps : forall i j w w', nth_error (rows_with_id i (f_rows (get_results t'))) j = Some w -> nth_error (rows_with_id i (f_rows (get_results t'))) (S j) = Some w' ->
  (forall e, ends_along surfaces e w -> row_idx w' * vdot e (row_tilt w') = row_idx w * vdot e (row_tilt w)) /\
  (forall q e, ends_about surfaces q e w -> row_idx w' * moment q e (row_start w') (row_tilt w') = row_idx w * moment q e (row_start w) (row_tilt w)).
Proof.
  intros i j w w' N N'. destruct (proper_bounces asort AS gen h t comps fuel t' PR TR i _ eq_refl) as (_ & B & _).
  destruct (bounce_keeps _ _ _ (B j w w' N N')) as (s & n & IN & ID & WN & U & T).
  destruct (proper_legs asort AS gen h t comps fuel t' PR TR) as (A & F). destruct (F i j w w' N N') as (ST & _).
  assert (ONE : forall s' n', In s' surfaces -> s_id s' = row_surf w -> world_normal s' (here (row_end w)) = Some n' -> n' = n).
  { intros s' n' IN' ID' WN'. assert (s' = s) by (destruct PR as ((_ & _ & ND) & _); eapply one_of_id; eauto; congruence). subst s'. congruence. }
  split.
  - intros e (s' & n' & IN' & ID' & WN' & E). rewrite (ONE s' n') in E by auto. symmetry. apply (along_tangential e _ _ n); auto.
  - intros q e (s' & n' & IN' & ID' & WN' & E). rewrite (ONE s' n') in E by auto. rewrite ST, moment_along. symmetry.
    assert (IW : In w (f_rows (get_results t'))) by (apply (in_rows_with_id i); eapply nth_error_In; eauto).
    destruct (A w IW) as (_ & _ & c & _ & EN & _).
    rewrite <- (moment_along q e (row_start w) (row_tilt w) c), <- EN. apply (moment_tangential q e _ _ _ n); auto.
Qed.
Lemma kept : forall (P : row -> Prop) (f : row -> R) i,
  (forall j w w', nth_error (rows_with_id i (f_rows (get_results t'))) j = Some w -> nth_error (rows_with_id i (f_rows (get_results t'))) (S j) = Some w' -> P w -> f w' = f w) ->
  forall ws before w after, rows_with_id i (f_rows (get_results t')) = before ++ ws ++ w :: after -> Forall P ws -> f w = f (hd w ws).
Proof.
  intros P f i STEP. induction ws as [|u ws IH]; intros before w after R F; [reflexivity|]. inversion F as [|? ? F1 F2]; subst. cbn [hd].
  rewrite (IH (before ++ [u]) w after) by (auto; rewrite R, <- app_assoc; reflexivity).
  apply (STEP (length before)); auto.
  - rewrite R, nth_error_app2, Nat.sub_diag by lia. reflexivity.
  - rewrite R, nth_error_app2 by lia. replace (S (length before) - length before)%nat with 1%nat by lia. destruct ws; reflexivity.
Qed.
End Run.

Lemma kept_along : forall asort, argsort_ok asort -> forall gen h t comps fuel t', proper gen h t comps -> trace asort h gen fuel t = TOk t' ->
  forall e i before ws w after, rows_with_id i (f_rows (get_results t')) = before ++ ws ++ w :: after ->
  Forall (ends_along (flat_map surface_ids comps) e) ws -> row_idx w * vdot e (row_tilt w) = row_idx (hd w ws) * vdot e (row_tilt (hd w ws)).
Proof.
  intros asort AS gen h t comps fuel t' PR TR e i before ws w after R F.
  apply (kept t' (ends_along (flat_map surface_ids comps) e) (fun w => row_idx w * vdot e (row_tilt w)) i) with (before := before) (after := after); auto.
  intros j u u' N N' E. apply (next_keeps asort AS gen h t t' comps fuel PR TR i j u u' N N'); auto.
Qed.
Lemma kept_about : forall asort, argsort_ok asort -> forall gen h t comps fuel t', proper gen h t comps -> trace asort h gen fuel t = TOk t' ->
  forall q e i before ws w after, rows_with_id i (f_rows (get_results t')) = before ++ ws ++ w :: after ->
  Forall (ends_about (flat_map surface_ids comps) q e) ws ->
  row_idx w * moment q e (row_start w) (row_tilt w) = row_idx (hd w ws) * moment q e (row_start (hd w ws)) (row_tilt (hd w ws)) /\
  moment q e (row_end w) (row_tilt w) = moment q e (row_start w) (row_tilt w).
Proof.
  intros asort AS gen h t comps fuel t' PR TR q e i before ws w after R F. split.
  - apply (kept t' (ends_about (flat_map surface_ids comps) q e) (fun w => row_idx w * moment q e (row_start w) (row_tilt w)) i) with (before := before) (after := after); auto.
    intros j u u' N N' E. apply (next_keeps asort AS gen h t t' comps fuel PR TR i j u u' N N'); auto.
  - destruct (proper_legs asort AS gen h t comps fuel t' PR TR) as (A & _).
    assert (IW : In w (f_rows (get_results t'))).
    { apply (in_rows_with_id i). rewrite R. apply in_app_iff. right. apply in_app_iff. right. left. reflexivity. }
    destruct (A w IW) as (_ & _ & c & _ & EN & _). rewrite EN. apply moment_along.
Qed.
