(** * PrismExamples4: the passage of least deviation at the index 6/5, and two colours through a prism of BK7 *)
From Coq Require Import Reals List Bool ZArith Lra Lia Psatz.
Import ListNotations.
From Verif Require Import XR XRFacts Lin Ops SpecOptics Prim Csg Surf CsgProps World Tracer SpecTrace Components SpecComponents SpecMotion MotionFacts ComponentFacts3 OpticsExamples
  SpecPrism PrismLaw PrismFacts PrismProps PrismExamples PrismExamples2 PrismExamples3.
From Verif Require SpecUtils Utils UtilFacts UtilProps.
Open Scope R_scope.

Definition thin_glass : material := Refractor (fun _ => Fin (6 / 5)).
Lemma sqrt3' : 17320 / 10000 < sqrt 3 < 17321 / 10000.
Proof. destruct sqrt3 as [K2 K]. split; nra. Qed.
(** Symmetric: the ray runs level inside *)
Lemma level_passage : passage (6 / 5) ((3 + 4 * sqrt 3) / 10) ((3 * sqrt 3 - 4) / 10) 1 0 ((3 + 4 * sqrt 3) / 10) (- ((3 * sqrt 3 - 4) / 10)).
Proof.
  destruct sqrt3 as [K2 K]. pose proof sqrt3'.
  assert (SE : sqrt 3 * ((3 + 4 * sqrt 3) / 10) = (3 * sqrt 3 + 12) / 10) by (transitivity ((3 * sqrt 3 + 4 * (sqrt 3 * sqrt 3)) / 10); [field|rewrite K2; field]).
  assert (SF : sqrt 3 * ((3 * sqrt 3 - 4) / 10) = (9 - 4 * sqrt 3) / 10) by (transitivity ((3 * (sqrt 3 * sqrt 3) - 4 * sqrt 3) / 10); [field|rewrite K2; field]).
  assert (UU : (3 + 4 * sqrt 3) / 10 * ((3 + 4 * sqrt 3) / 10) + (3 * sqrt 3 - 4) / 10 * ((3 * sqrt 3 - 4) / 10) = 1) by (transitivity ((25 + 25 * (sqrt 3 * sqrt 3)) / 100); [field|rewrite K2; field]).
  unfold passage, oblique. repeat split; try lra; try (left; reflexivity); try (apply clear_big; first [left; lra|right; lra]).
Qed.

(** The ray that comes with the rise 4/5 *)
Lemma steep_passage : forall n, 15 / 10 < n < 155 / 100 ->
  exists e1 f1 e2 f2, passage n (2 / 5 + 3 * sqrt 3 / 10) (2 * sqrt 3 / 5 - 3 / 10) e1 f1 e2 f2.
Proof.
  intros n N. destruct sqrt3 as [K2 _]. pose proof sqrt3' as K. set (r := sqrt 3) in *.
  assert (AN : 4 / (5 * n) * n = 4 / 5) by (field; lra). set (a := 4 / (5 * n)) in *. clearbody a.
  assert (A : 516 / 1000 < a < 534 / 1000) by (split; nra).
  assert (CC : sqrt (1 - a * a) * sqrt (1 - a * a) = 1 - a * a) by (apply sqrt_sqrt; nra). pose proof (sqrt_pos (1 - a * a)) as CP.
  set (c := sqrt (1 - a * a)) in *. clearbody c. assert (C : 845 / 1000 < c < 857 / 1000) by (split; nra).
  set (b := n * ((r * c - a) / 2)).
  assert (RC : 14635 / 10000 < r * c < 14845 / 10000) by (split; nra).
  assert (B : 69 / 100 < b < 755 / 1000) by (unfold b; split; nra).
  assert (DD : sqrt (1 - b * b) * sqrt (1 - b * b) = 1 - b * b) by (apply sqrt_sqrt; nra). pose proof (sqrt_pos (1 - b * b)) as DP.
  set (d := sqrt (1 - b * b)) in *. clearbody d. assert (D : 65 / 100 < d < 73 / 100) by (split; nra).
  assert (RA : 893 / 1000 < r * a < 925 / 1000) by (split; nra). assert (RB : 119 / 100 < r * b < 1308 / 1000) by (split; nra). assert (RD : 112 / 100 < r * d < 1265 / 1000) by (split; nra).
  exists ((a + r * c) / 2), ((r * a - c) / 2), ((b + r * d) / 2), ((d - r * b) / 2).
  assert (SS : forall p q, r * ((p + r * q) / 2) = (r * p + 3 * q) / 2) by (intros; transitivity ((r * p + (r * r) * q) / 2); [field|rewrite K2; field]).
  assert (SQ : forall p q, r * ((r * p - q) / 2) = (3 * p - r * q) / 2) by (intros; transitivity (((r * r) * p - r * q) / 2); [field|rewrite K2; field]).
  assert (ST : forall p q, r * ((q - r * p) / 2) = (r * q - 3 * p) / 2) by (intros; transitivity ((r * q - (r * r) * p) / 2); [field|rewrite K2; field]).
  assert (UU : forall p q, (p + r * q) / 2 * ((p + r * q) / 2) + (r * p - q) / 2 * ((r * p - q) / 2) = p * p + q * q) by (intros; transitivity ((1 + r * r) * (p * p + q * q) / 4); [field|rewrite K2; field]).
  assert (UV : forall p q, (p + r * q) / 2 * ((p + r * q) / 2) + (q - r * p) / 2 * ((q - r * p) / 2) = p * p + q * q) by (intros; transitivity ((1 + r * r) * (p * p + q * q) / 4); [field|rewrite K2; field]).
  replace (2 / 5 + 3 * r / 10) with ((4 / 5 + r * (3 / 5)) / 2) by field. replace (2 * r / 5 - 3 / 10) with ((r * (4 / 5) - 3 / 5) / 2) by field.
  assert (E : n * ((a + r * c) / 2 - (r * (d - r * b) / 2 - r * (d - r * b) / 2)) = n * ((a + r * c) / 2)) by ring. clear E.
  unfold passage, oblique. fold r. rewrite !UU, !UV, !SS, !SQ, !ST.
  assert (H3 : forall x, r / 2 * x = r * x / 2) by (intro; field). rewrite !H3, !SS, !SQ, !ST.
  assert (L1 : n * ((a + r * c) / 2 + (3 * a - r * c) / 2) = (4 / 5 + r * (3 / 5)) / 2 + (3 * (4 / 5) - r * (3 / 5)) / 2) by (transitivity (2 * (a * n)); [field|rewrite AN; field]).
  assert (L2 : n * ((a + r * c) / 2 - (3 * a - r * c) / 2) = (b + r * d) / 2 - (r * d - 3 * b) / 2) by (transitivity (2 * b); [unfold b; field|field]).
  clearbody b. repeat split; try lra; apply clear_big; first [left; lra|right; lra].
Qed.

Lemma prism_case : forall asort, argsort_ok asort -> forall P, built asort (equilateral_prism 2 2 thin_glass) P ->
  exists s w1 w2 w3, P s /\ traced_through asort s 2 2 mid w1 w2 w3 /\ skew mid w1 = 0 /\ rise mid w1 = 3 / 5 /\ row_idx w3 = 1.
Proof.
  intros asort AS P BU. pose proof level_passage as LP. destruct sqrt3 as [K2 _].
  destruct (prism_passes asort AS (fun _ => Fin (6 / 5)) ((3 + 4 * sqrt 3) / 10) ((3 * sqrt 3 - 4) / 10) [633 / 1000]) with (P := P) as (s & PS & H); auto.
  - apply LP.
  - discriminate.
  - intros wl _. exists (6 / 5). split; [reflexivity|lra].
  - destruct (H 0%nat (633 / 1000) (6 / 5) _ _ _ _ eq_refl eq_refl LP) as (w1 & w2 & w3 & T & W & D & X & _). exists s, w1, w2, w3.
    unfold skew, rise. rewrite D, !mid_at. unfold vdot, edgewise, up_left; cbn [vx vy vz vw]. repeat split; auto; [ring|].
    transitivity ((3 + 3 * (sqrt 3 * sqrt 3)) / 20); [field|rewrite K2; field].
Qed.

Lemma bk7_blue : exists n, Utils.glass Utils.BK7 (5 / 10) = Fin n /\ 15 / 10 < n < 155 / 100.
Proof.
  simpl Utils.glass. apply UtilProps.index_near; auto using UtilProps.bk7_ok; unfold SpecUtils.visible; try lra.
  unfold Utils.bk7; cbn [Utils.b1 Utils.b2 Utils.b3 Utils.c1 Utils.c2 Utils.c3]; split; field_simplify; lra.
Qed.
Lemma bk7_orange : exists n, Utils.glass Utils.BK7 (6 / 10) = Fin n /\ 15 / 10 < n < 155 / 100.
Proof.
  simpl Utils.glass. apply UtilProps.index_near; auto using UtilProps.bk7_ok; unfold SpecUtils.visible; try lra.
  unfold Utils.bk7; cbn [Utils.b1 Utils.b2 Utils.b3 Utils.c1 Utils.c2 Utils.c3]; split; field_simplify; lra.
Qed.
Lemma prism_colours : forall asort, argsort_ok asort -> forall P, built asort (equilateral_prism 2 2 (Utils.glass_material Utils.BK7)) P ->
  exists s w1 w2 w3 v1 v2 v3, P s /\ traced_through asort s 2 2 mid w1 w2 w3 /\ traced_through asort s 2 2 mid v1 v2 v3 /\
  row_tilt w1 = row_tilt v1 /\ row_wl w1 = 5 / 10 /\ row_wl v1 = 6 / 10 /\ row_idx w3 = 1 /\ row_idx v3 = 1 /\ skew mid w1 = 0 /\ rise mid w1 = 4 / 5 /\ row_start w1 = row_start v1.
Proof.
  intros asort AS P BU. destruct sqrt3 as [K2 _]. destruct bk7_blue as (n & E & N). destruct bk7_orange as (n' & E' & N').
  destruct (steep_passage n N) as (e1 & f1 & e2 & f2 & Q). destruct (steep_passage n' N') as (e1' & f1' & e2' & f2' & Q').
  destruct (prism_passes asort AS (Utils.glass Utils.BK7) (2 / 5 + 3 * sqrt 3 / 10) (2 * sqrt 3 / 5 - 3 / 10) [5 / 10; 6 / 10]) with (P := P) as (s & PS & H); auto.
  - apply Q.
  - discriminate.
  - intros wl [<- | [<- | []]]; [exists n|exists n']; split; auto; lra.
  - destruct (H 0%nat _ n _ _ _ _ eq_refl E Q) as (w1 & w2 & w3 & T & W & D & X & O).
    destruct (H 1%nat _ n' _ _ _ _ eq_refl E' Q') as (v1 & v2 & v3 & T' & W' & D' & X' & O'). exists s, w1, w2, w3, v1, v2, v3.
    unfold skew, rise. rewrite D, D', !mid_at. unfold vdot, edgewise, up_left; cbn [vx vy vz vw]. repeat split; auto; [ring| |congruence].
    transitivity (1 / 5 + (sqrt 3 * sqrt 3) / 5); [field|rewrite K2; field].
Qed.
