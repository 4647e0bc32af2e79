(** * ComponentProps: the component properties in the form they are stated *)
From Coq Require Import Reals Lra Lia List Bool ZArith Psatz.
Import ListNotations.
From Verif Require Import XR XRFacts Arr Lin LinFacts Prim Csg Surf SpecGeom SpecTree CsgProps World SpecWorld
  WorldFacts3 WorldFacts5 WorldProps Components SpecComponents BuildFacts ComponentFacts ComponentFacts2 ComponentFacts3 ComponentFacts4.
Open Scope R_scope.

Lemma components_span : forall asort t ap m, argsort_ok asort -> ap_ok ap -> 0 < t ->
  (forall r1 r2, radius_ok r1 (reach ap) -> radius_ok r2 (reach ap) ->
     front_reaches r1 r2 t (reach ap) -> back_reaches r1 r2 t (reach ap) ->
     (forall q, 0 <= q <= reach ap * reach ap -> lens_front r1 t q < lens_back r2 t q) ->
     built asort (thick_lens r1 r2 t ap m) (spans ap (0, 0))) /\
  (forall off, built asort (plane_mirror t ap off m) (spans ap off)) /\
  (forall r off, r <> 0 -> sqrt (fst off * fst off + snd off * snd off) + reach ap <= Rabs r ->
     built asort (spherical_mirror (Fin r) t ap off m) (spans ap off)) /\
  (forall f off, 0 < f -> built asort (parabolic_mirror f t ap off m) (spans ap off)).
Proof.
  intros asort t ap m AO A T. split; [|split; [|split]].
  - intros. apply lens_spans; auto; lra.
  - intros. apply plane_spans; auto; lra.
  - intros. apply spherical_spans; auto.
  - intros. apply parabolic_spans; auto.
Qed.
(** numbers about spheres *)
Lemma root_bounds : forall r q, 0 <= r -> 0 <= q <= r * r -> 0 <= sqrt (r * r - q) <= r /\ sqrt (r * r - q) * sqrt (r * r - q) = r * r - q.
Proof.
  intros r q R0 Q. pose proof (sqrt_pos (r * r - q)). assert (S := sqrt_sqrt (r * r - q) ltac:(lra)). split; [split; [auto|nra]|exact S].
Qed.
Lemma rl : forall a b, a < b -> rltb a b = true.
Proof. intros. apply rltb_true; auto. Qed.
Lemma rnl : forall a b, b <= a -> rltb a b = false.
Proof. intros. apply rltb_false; auto. Qed.
Ltac root r q := let B := fresh in let S := fresh in let s := fresh "s" in
  destruct (root_bounds r q ltac:(lra) ltac:(lra)) as [B S]; set (s := sqrt (r * r - q)) in *.
Lemma span_example :
  ap_ok (Pair 1 2) /\ radius_ok (Fin 10) (reach (Pair 1 2)) /\ radius_ok PInf (reach (Pair 1 2)) /\
  front_reaches (Fin 10) PInf 1 (reach (Pair 1 2)) /\ back_reaches (Fin 10) PInf 1 (reach (Pair 1 2)) /\
  (forall q, 0 <= q <= reach (Pair 1 2) * reach (Pair 1 2) -> lens_front (Fin 10) 1 q < lens_back PInf 1 q) /\
  sqrt (3 * 3 + 4 * 4) + reach (Round 2) <= Rabs (-10).
Proof.
  assert (H2 : reach (Pair 1 2) * reach (Pair 1 2) = 5 / 4) by (simpl; rewrite sqrt_sqrt; lra).
  pose proof (reach_pos (Pair 1 2) ltac:(simpl; lra)) as H0. assert (H1 : reach (Pair 1 2) <= 2) by nra.
  set (h := reach (Pair 1 2)) in *. clearbody h.
  split; [simpl; lra|]. split; [simpl; rewrite Rabs_right by lra; lra|]. split; [exact I|]. split; [|split; [|split]].
  - intros r E P q Q. injection E as <-. unfold lens_back, sag. pose proof (sqrt_pos (10 * 10 - q)). lra.
  - intros r E. discriminate.
  - intros q Q. unfold lens_front, lens_back, sag. rewrite rl by lra. root 10 q. nra.
  - replace (3 * 3 + 4 * 4) with (5 * 5) by ring. rewrite sqrt_square by lra. simpl. rewrite Rabs_left by lra. lra.
Qed.
Lemma baffle_is_turned : forall asort, argsort_ok asort ->
  (forall a b, 0 <= a -> 0 <= b -> built asort (baffle (Pair a b)) (spans (Pair b a) (0, 0))) /\
  built asort (baffle (Pair 1 2)) (fun s => ~ spans (Pair 1 2) (0, 0) s).
Proof.
  intros asort AO. split; [intros; apply baffle_turned; auto|].
  eapply built_weaken; [|apply (baffle_solid asort 1 2); [exact AO|lra|lra]]. intros s F K.
  assert (N : exists x, inside s (pt x 0 (3 / 4))).
  { apply K. simpl. rewrite !Rminus_0_r, Rabs_R0, Rabs_right by lra. lra. }
  destruct N as (x & N). rewrite (F x 0 (3 / 4)) in N. rewrite Rabs_right in N by lra. lra.
Qed.
Lemma lens_example : let ap := Round 4 in
  (radius_ok (Fin 10) (reach ap) /\ radius_ok (Fin 20) (reach ap) /\ front_reaches (Fin 10) (Fin 20) 1 (reach ap) /\ back_reaches (Fin 10) (Fin 20) 1 (reach ap)) /\
  (radius_ok (Fin (-5)) (reach ap) /\ radius_ok (Fin 5) (reach ap) /\ front_reaches (Fin (-5)) (Fin 5) 1 (reach ap) /\ back_reaches (Fin (-5)) (Fin 5) 1 (reach ap)) /\
  (radius_ok PInf (reach ap) /\ front_reaches PInf PInf 1 (reach ap) /\ back_reaches PInf PInf 1 (reach ap)).
Proof.
  cbv zeta. unfold reach. split; [|split].
  - split; [simpl; rewrite Rabs_right; lra|]. split; [simpl; rewrite Rabs_right; lra|]. split.
    + intros r E P q Q. injection E as <-. unfold lens_back, sag. rewrite rl by lra. root 10 q. root 20 q. nra.
    + intros r E P. injection E as <-. lra.
  - split; [simpl; rewrite Rabs_left; lra|]. split; [simpl; rewrite Rabs_right; lra|]. split; intros r E P; injection E as <-; lra.
  - split; [exact I|]. split; intros r E; discriminate.
Qed.
Lemma biconvex_example : reach (Round 4) <= 10 /\
  front_reaches (Fin 10) (Fin (- (10))) 1 (reach (Round 4)) /\ back_reaches (Fin 10) (Fin (- (10))) 1 (reach (Round 4)) /\
  back_reaches PInf (Fin (- (10))) 1 (reach (Round 4)).
Proof.
  unfold reach. split; [lra|]. split; [|split]; intros r E P q Q; injection E as <-; unfold lens_back, lens_front, sag; rewrite ?rnl by lra; rewrite ?rl by lra;
  replace (- (10) * - (10)) with (10 * 10) by ring; root 10 q; lra.
Qed.
Lemma biconvex_point : forall asort m, argsort_ok asort ->
  built asort (biconvex_lens (Fin 2) (Fin 1) 1 (Round 1) m) (occupies (fun x y z => x = 1 / 2 /\ y = 0 /\ z = 0)) /\
  (forall x y z, x * x + y * y + z * z < 1 / 100 ->
     in_aperture (Round 1) (0, 0) y z /\ lens_front (Fin 2) 1 (y * y + z * z) < x < lens_back (Fin (-1)) 1 (y * y + z * z)).
Proof.
  intros asort m AO. split; [apply biconvex_needle; exact AO|]. intros x y z H. assert (0 <= x * x) by nra. assert (0 <= y * y) by nra. assert (0 <= z * z) by nra.
  split; [simpl; lra|]. unfold lens_front, lens_back, sag. rewrite rl, rnl by lra. set (q := y * y + z * z) in *.
  assert (0 <= q < 1 / 100) by (unfold q; lra). clearbody q.
  replace (-1 * -1) with (1 * 1) by ring. root 2 q. root 1 q. assert (-1 / 10 < x < 1 / 10) by nra. nra.
Qed.
Lemma apertures_built : forall asort, argsort_ok asort ->
  (forall d t off m, 0 < d -> 0 <= t -> built asort (plane_mirror t (Round d) off m) (occupies (fun x y z =>
     (y - fst off) * (y - fst off) + (z - snd off) * (z - snd off) <= (d / 2) * (d / 2) /\ - (t / 2) <= x <= t / 2))) /\
  (forall a b t off m, 0 < a -> 0 < b -> 0 <= t -> built asort (plane_mirror t (Pair a b) off m) (occupies (fun x y z =>
     (Rabs (y - fst off) <= a / 2 /\ Rabs (z - snd off) <= b / 2) /\ - (t / 2) <= x <= t / 2))) /\
  (forall a b, a <= 0 \/ b <= 0 -> forall r1 r2 t off m f,
     thick_lens r1 r2 t (Pair a b) m = TypeError /\ biconvex_lens r1 r2 t (Pair a b) m = TypeError /\
     plano_convex_lens r1 t (Pair a b) m = TypeError /\ plane_mirror t (Pair a b) off m = TypeError /\
     spherical_mirror r1 t (Pair a b) off m = TypeError /\ (f <> 0 -> parabolic_mirror f t (Pair a b) off m = TypeError) /\
     forall size, aperture size (Pair a b) = TypeError).
Proof.
  intros asort AO. split; [|split].
  - intros d t off m D T. exact (plane_mirror_solid asort t (Round d) off m AO D T).
  - intros a b t off m A B T. exact (plane_mirror_solid asort t (Pair a b) off m AO (conj A B) T).
  - intros a b N. apply only_positive_pairs. lra.
Qed.
Lemma apertures_refused :
  (forall a b r1 r2 t m, 0 < a -> 0 < b -> thick_lens r1 r2 t (Pair (- a) (- b)) m = TypeError) /\
  (forall d, baffle (Round d) = TypeError) /\
  (forall d op, aperture (Round d) op = TypeError).
Proof.
  split; [|split; reflexivity]. intros a b r1 r2 t m A B. apply (only_positive_pairs (- a) (- b) ltac:(lra) r1 r2 t (0, 0) m 1).
Qed.
Lemma documented_placement : forall asort, argsort_ok asort ->
  (forall t ap m, ap_ok ap -> 0 < t -> built asort (plane_mirror t ap (0, 0) m) (fun s =>
     inside s (pt (t / 2) 0 0) /\ ~ inside s (pt (- t) 0 0))) /\
  (forall side width m, 0 < side -> 0 < width -> built asort (equilateral_prism side width m) (fun s =>
     exists z, inside s (pt 0 0 z) /\ ~ inside s (pt (side * 4 / 10) 0 z) /\ forall y, Rabs y <= width / 2 -> inside s (pt 0 y z))).
Proof.
  intros asort AO. split.
  - intros t ap m A T. eapply built_weaken; [|apply (plane_mirror_solid asort t ap (0, 0) m); [exact AO|exact A|lra]].
    intros s F. rewrite (F (t / 2) 0 0), (F (- t) 0 0). split; [|lra]. split; [|lra].
    destruct ap as [d|a b]; simpl in A |- *; rewrite !Rminus_0_r; [nra|rewrite Rabs_R0; lra].
  - intros side width m S W. apply prism_built; [exact AO|]. intros s _ _ F. exists 0. destruct sqrt3 as [K2 K].
    split; [|split]; [| |intros y Y]; rewrite F, prism_region by assumption.
    + rewrite Rabs_R0. set (k := sqrt 3) in *. split; [lra|]. split; [nra|]. split; nra.
    + set (k := sqrt 3) in *. intros (_ & _ & _ & L). nra.
    + set (k := sqrt 3) in *. split; [exact Y|]. split; [nra|]. split; nra.
Qed.
