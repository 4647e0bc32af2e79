(** * FlHitsFacts: the error of a root of a quadratic, and of a product with a matrix *)
From Coq Require Import Reals List Bool ZArith Permutation Lra Lia Psatz.
Import ListNotations.
From Verif Require Import XR XRFacts Lin Fl SpecFl FlFacts FlProps FlHits SpecFlHits.
Open Scope R_scope.

Lemma abs_mul_le : forall x y a b, Rabs x <= a -> Rabs y <= b -> Rabs (x * y) <= a * b.
Proof. intros. rewrite Rabs_mult. apply Rmult_le_compat; auto using Rabs_pos. Qed.
Lemma abs_div_le : forall x y a b, Rabs x <= a -> 0 < b -> b <= y -> Rabs (x / y) <= a / b.
Proof.
  intros x y a b X B Y. unfold Rdiv. apply abs_mul_le; auto. rewrite Rabs_right by (apply Rle_ge; left; apply Rinv_0_lt_compat; lra). apply Rinv_le_contravar; auto.
Qed.

(** ** A root of t t + B t + C *)
Lemma quad1 : forall e B C a b c disc root num den t sigma, 0 <= e <= / 1000 -> Rabs B <= 2 -> Rabs C <= 1 ->
  Rabs (a - 1) <= e -> Rabs (b - B) <= e -> Rabs (c - C) <= e -> Rabs (disc - (b * b - 4 * a * c)) <= e -> 0 <= disc ->
  Rabs (root - sqrt disc) <= e -> sigma = 1 \/ sigma = -1 -> Rabs (num - (- b + sigma * root)) <= e -> Rabs (den - 2 * a) <= e -> Rabs (t - num / den) <= e ->
  Rabs (t * t + B * t + C) <= 40 * e /\ Rabs t <= 3.
Proof.
  intros e B C a b c disc root num den t sigma (E0 & E1) HB HC Ha Hb Hc Hd D0 Hr Sg Hn Hden Ht.
  assert (Bb : Rabs b <= 2.001). { replace b with ((b - B) + B) by ring. eapply Rle_trans; [apply abs_tri; eassumption|]. lra. }
  assert (Bc : Rabs c <= 1.001). { replace c with ((c - C) + C) by ring. eapply Rle_trans; [apply abs_tri; eassumption|]. lra. }
  assert (Aa := abs_le_both _ _ Ha). assert (Dd := abs_le_both _ _ Hden).
  assert (Bd : disc <= 8.1).
  { assert (X1 : Rabs (b * b) <= 2.001 * 2.001) by (apply abs_mul_le; auto). assert (X2 : Rabs ((4 * a) * c) <= 4.004 * 1.001) by (apply abs_mul_le; auto; apply Rabs_le; lra).
    apply abs_le_both in X1, X2, Hd. lra. }
  assert (Sd : sqrt disc <= 2.847). { apply le_of_sqr; [lra|]. rewrite sqrt_sqrt by auto. lra. }
  pose proof (sqrt_pos disc) as S0. assert (Br := abs_le_both _ _ Hr). assert (Rr : Rabs root <= 2.85) by (apply Rabs_le; lra).
  assert (Sr : Rabs (sigma * root) <= 2.85). { destruct Sg as [-> | ->]; [rewrite Rmult_1_l|replace (-1 * root) with (- root) by ring; rewrite Rabs_Ropp]; auto. }
  assert (S2 : sigma * sigma = 1) by (destruct Sg as [-> | ->]; ring).
  set (N := - b + sigma * root) in *. assert (BN : Rabs N <= 4.86). { eapply Rle_trans; [apply abs_tri; [rewrite Rabs_Ropp; exact Bb|exact Sr]|]. lra. }
  set (ts := N / (2 * a)). assert (Bts : Rabs ts <= 2.44). { eapply Rle_trans; [apply (abs_div_le _ _ 4.86 1.998); auto; lra|]. lra. }
  assert (Dt : Rabs (num / den - ts) <= 2 * e).
  { replace (num / den - ts) with ((num - N) / den + ts * ((2 * a - den) / den)) by (unfold ts; field; lra).
    eapply Rle_trans; [apply abs_tri; [apply (abs_div_le _ _ e 1.997); auto; lra|apply abs_mul_le; [exact Bts|apply (abs_div_le _ _ e 1.997); [rewrite Rabs_minus_sym; auto|lra|lra]]]|]. lra. }
  assert (Dts : Rabs (t - ts) <= 3 * e). { replace (t - ts) with ((t - num / den) + (num / den - ts)) by ring. eapply Rle_trans; [apply abs_tri; eassumption|]. lra. }
  assert (Bt : Rabs t <= 2.45). { replace t with ((t - ts) + ts) by ring. eapply Rle_trans; [apply abs_tri; eassumption|]. lra. }
  split; [|lra].
  assert (Ets : 2 * a * ts = N) by (unfold ts; field; lra).
  assert (Root : Rabs (root * root - disc) <= 5.7 * e).
  { rewrite <- (sqrt_sqrt disc) at 1 by auto. replace (root * root - sqrt disc * sqrt disc) with ((root - sqrt disc) * (root + sqrt disc)) by ring.
    rewrite Rmult_comm. apply abs_mul_le; auto. apply Rabs_le. lra. }
  set (q1 := root * root - disc) in *. set (q2 := disc - (b * b - 4 * a * c)) in *.
  assert (Q : a * ts * ts + b * ts + c = (q1 + q2) / (4 * a)).
  { unfold q1, q2. apply (Rmult_eq_reg_l (4 * a)); [|lra]. replace (4 * a * ((root * root - disc + (disc - (b * b - 4 * a * c))) / (4 * a))) with (root * root - b * b + 4 * a * c) by (field; lra).
    replace (4 * a * (a * ts * ts + b * ts + c)) with ((2 * a * ts) * (2 * a * ts) + 2 * b * (2 * a * ts) + 4 * a * c) by ring. rewrite Ets. unfold N.
    replace ((- b + sigma * root) * (- b + sigma * root) + 2 * b * (- b + sigma * root) + 4 * a * c) with ((sigma * sigma) * (root * root) - b * b + 4 * a * c) by ring. rewrite S2. ring. }
  replace (t * t + B * t + C) with ((t - ts) * (t + ts + B) + (((1 - a) * (ts * ts) + (B - b) * ts) + ((C - c) + (a * ts * ts + b * ts + c)))) by ring.
  rewrite Q.
  assert (T1 : Rabs ((t - ts) * (t + ts + B)) <= 3 * e * 6.9).
  { apply abs_mul_le; auto. eapply Rle_trans; [apply abs_tri; [apply abs_tri; eassumption|exact HB]|]. lra. }
  assert (T2 : Rabs ((1 - a) * (ts * ts)) <= e * (2.44 * 2.44)) by (apply abs_mul_le; [rewrite Rabs_minus_sym; auto|apply abs_mul_le; auto]).
  assert (T3 : Rabs ((B - b) * ts) <= e * 2.44) by (apply abs_mul_le; [rewrite Rabs_minus_sym; auto|auto]).
  assert (T4 : Rabs (C - c) <= e) by (rewrite Rabs_minus_sym; auto).
  assert (T5 : Rabs ((q1 + q2) / (4 * a)) <= (5.7 * e + e) / 3.996) by (apply abs_div_le; [apply abs_tri; auto|lra|lra]).
  eapply Rle_trans; [apply abs_tri; [exact T1|apply abs_tri; [apply abs_tri; [exact T2|exact T3]|apply abs_tri; [exact T4|exact T5]]]|]. lra.
Qed.

(** |x k - y k| <= e from |x - y| <= e / k *)
Lemma scaled : forall x y e k, 0 < k -> Rabs (x - y) <= e * k -> Rabs (x / k - y / k) <= e.
Proof.
  intros x y e k K H. replace (x / k - y / k) with ((x - y) / k) by (field; lra). eapply Rle_trans; [apply (abs_div_le _ _ (e * k) k); auto; lra|]. apply Req_le. field. lra.
Qed.
Lemma scaled0 : forall x e k, 0 < k -> Rabs x <= e * k -> Rabs (x / k) <= e.
Proof. intros x e k K H. eapply Rle_trans; [apply (abs_div_le _ _ (e * k) k); auto; lra|]. apply Req_le. field. lra. Qed.

(** A root of s s t t + B t + C, where B is of the size s M and C of the size M M *)
Lemma quad : forall e s M B C a b c disc root num den t sigma, 0 <= e <= / 1000 -> 0 < s -> 0 < M -> Rabs B <= 2 * (s * M) -> Rabs C <= M * M ->
  Rabs (a - s * s) <= e * (s * s) -> Rabs (b - B) <= e * (s * M) -> Rabs (c - C) <= e * (M * M) ->
  Rabs (disc - (b * b - 4 * a * c)) <= e * ((s * M) * (s * M)) -> 0 <= disc ->
  Rabs (root - sqrt disc) <= e * (s * M) -> sigma = 1 \/ sigma = -1 -> Rabs (num - (- b + sigma * root)) <= e * (s * M) ->
  Rabs (den - 2 * a) <= e * (s * s) -> Rabs (t - num / den) <= e * (M / s) ->
  Rabs (s * s * (t * t) + B * t + C) <= 40 * e * (M * M) /\ Rabs t <= 3 * (M / s).
Proof.
  intros e s M B C a b c disc root num den t sigma HE S0 M0 HB HC Ha Hb Hc Hd D0 Hr Sg Hn Hden Ht.
  assert (P1 : 0 < s * s) by nra. assert (P2 : 0 < s * M) by nra. assert (P3 : 0 < M * M) by nra. assert (P4 : 0 < (s * M) * (s * M)) by nra.
  assert (P5 : 0 < M / s) by (apply Rdiv_lt_0_compat; auto).
  assert (DN : den <> 0). { apply abs_le_both in Ha, Hden. nra. }
  assert (SQ : sqrt (disc / ((s * M) * (s * M))) = sqrt disc / (s * M)).
  { rewrite sqrt_div_alt by auto. rewrite sqrt_square by lra. reflexivity. }
  destruct (quad1 e (B / (s * M)) (C / (M * M)) (a / (s * s)) (b / (s * M)) (c / (M * M)) (disc / ((s * M) * (s * M))) (root / (s * M)) (num / (s * M)) (den / (s * s)) (t / (M / s)) sigma) as (R1 & R2); auto.
  - apply scaled0; auto.
  - apply scaled0; auto. rewrite Rmult_1_l. auto.
  - replace 1 with (s * s / (s * s)) at 1 by (field; lra). apply scaled; auto.
  - apply scaled; auto.
  - apply scaled; auto.
  - replace (b / (s * M) * (b / (s * M)) - 4 * (a / (s * s)) * (c / (M * M))) with ((b * b - 4 * a * c) / ((s * M) * (s * M))) by (field; lra). apply scaled; auto.
  - apply Rmult_le_pos; [auto|left; apply Rinv_0_lt_compat; auto].
  - rewrite SQ. apply scaled; auto.
  - replace (- (b / (s * M)) + sigma * (root / (s * M))) with ((- b + sigma * root) / (s * M)) by (field; lra). apply scaled; auto.
  - replace (2 * (a / (s * s))) with ((2 * a) / (s * s)) by (field; lra). apply scaled; auto.
  - replace (num / (s * M) / (den / (s * s))) with ((num / den) / (M / s)) by (field; lra). apply scaled; auto.
  - split.
    + replace (s * s * (t * t) + B * t + C) with ((t / (M / s) * (t / (M / s)) + B / (s * M) * (t / (M / s)) + C / (M * M)) * (M * M)) by (field; lra).
      apply abs_mul_le; auto. rewrite Rabs_right; lra.
    + replace t with (t / (M / s) * (M / s)) at 1 by (field; lra). apply abs_mul_le; auto. rewrite Rabs_right; lra.
Qed.
