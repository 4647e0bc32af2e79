(** * OpticsExamples: concrete rays for the component properties *)
From Coq Require Import Reals Lra List Bool ZArith.
Import ListNotations.
From Verif Require Import XR XRFacts Arr Lin LinFacts Ops Prim Csg Surf SpecGeom SpecTree CsgProps World SpecWorld Tracer Components SpecComponents
  ComponentFacts ComponentFacts2 ComponentOptics MirrorFacts PlateFacts.
Open Scope R_scope.

Lemma clear_big : forall x, 1 / 1000 <= x \/ x <= - (1 / 1000) -> clear x.
Proof. intros x H. right. pose proof atol_small. unfold Rabs. destruct (Rcase_abs x); lra. Qed.
Lemma parabolic_example :
  ap_ok (Round 2) /\ atol < 4 * 1 /\ 1 / 10000000 <= reach (Round 2) * reach (Round 2) / (4 * 1) /\
  in_open_aperture (Round 2) (3, 0) (7 / 2) (1 / 2) /\ ((7 / 2) * (7 / 2) + (1 / 2) * (1 / 2)) / (4 * 1) - 1 < 5.
Proof.
  simpl. pose proof atol_small. repeat split; try lra.
Qed.
Lemma collimate_example :
  let f := 1 in let y := 1 in let z := 1 in let w := (y * y + z * z) / (4 * f) in
  let d := V4 ((w - f) / (w + f)) (y / (w + f)) (z / (w + f)) 0 in
  in_open_aperture (Pair 4 4) (0, 0) y z /\ clear_towards (Pair 4 4) d /\ clear (vy d * vy d + vz d * vz d) /\ clear (4 * f * vx d) /\
  1 / 10000000 <= reach (Pair 4 4) * reach (Pair 4 4) / (4 * f).
Proof.
  cbv zeta. assert (W : (1 * 1 + 1 * 1) / (4 * 1) = 1 / 2) by lra. rewrite W. unfold clear_towards. cbn [vx vy vz].
  assert (E1 : (1 / 2 - 1) / (1 / 2 + 1) = - (1 / 3)) by field. assert (E2 : 1 / (1 / 2 + 1) = 2 / 3) by field. rewrite E1, E2.
  split; [|split; [|split; [|split]]].
  - simpl. rewrite Rminus_0_r, Rabs_right; lra.
  - repeat split; try (apply clear_big; lra).
  - apply clear_big. lra.
  - apply clear_big. lra.
  - simpl. rewrite sqrt_sqrt; lra.
Qed.
Lemma spherical_example :
  let r := -10 in let dx := 4 / 5 in let dy := 3 / 5 in
  ap_ok (Round 2) /\ sqrt (6 * 6 + 0 * 0) + reach (Round 2) <= Rabs r /\ dx * dx + dy * dy + 0 * 0 = 1 /\
  clear_towards (Round 2) (V4 dx dy 0 0) /\ r * dx < 0 /\ 5 < Rabs r /\
  in_open_aperture (Round 2) (6, 0) (Rabs r * dy) (Rabs r * 0).
Proof.
  cbv zeta. replace (6 * 6 + 0 * 0) with (6 * 6) by ring. rewrite sqrt_square by lra. rewrite Rabs_left by lra. unfold clear_towards. cbn [vx vy vz]. simpl.
  repeat split; try lra; try (apply clear_big; lra); try apply clear_0.
Qed.
Lemma plate_example :
  let t := 2 in let n := 4 / 3 in let dx := 3 / 5 in let dy := 4 / 5 in
  let k := sqrt (1 - (1 - dx * dx) / (n * n)) in let q := (- 1 * (t / 2) - -4) / dx in
  ap_ok (Pair 10 6) /\ 3 / 100000000 <= t /\ dx * dx + dy * dy + 0 * 0 = 1 /\ 0 < 1 * dx /\ 1 * -4 < - (t / 2) /\ 0 < n /\ 1 - dx * dx < n * n /\
  clear_towards (Pair 10 6) (V4 dx dy 0 0) /\ clear_towards (Pair 10 6) (V4 (1 * k) (dy / n) (0 / n) 0) /\
  well_inside (Pair 10 6) (0, 0) (-3 + q * dy) (1 + q * 0) /\
  well_inside (Pair 10 6) (0, 0) (-3 + q * dy + t / k * (dy / n)) (1 + q * 0 + t / k * (0 / n)).
Proof.
  cbv zeta. assert (K : sqrt (1 - (1 - 3 / 5 * (3 / 5)) / (4 / 3 * (4 / 3))) = 4 / 5).
  { replace (1 - (1 - 3 / 5 * (3 / 5)) / (4 / 3 * (4 / 3))) with (4 / 5 * (4 / 5)) by field. apply sqrt_square. lra. }
  rewrite K. replace ((- 1 * (2 / 2) - -4) / (3 / 5)) with 5 by field. replace (2 / (4 / 5)) with (5 / 2) by field.
  replace (4 / 5 / (4 / 3)) with (3 / 5) by field. replace (0 / (4 / 3)) with 0 by field. unfold clear_towards. cbn [vx vy vz]. simpl. pose proof atol_small. unfold rtol.
  repeat split; try lra; try (apply clear_big; lra); try apply clear_0; try (rewrite Rabs_right; lra).
Qed.
Lemma thin_example :
  clear_towards (Round 2) (V4 (3 / 5) (4 / 5) 0 0) /\ -3 + 5 * (3 / 5) = 0 /\ in_aperture (Round 2) (0, 0) (-4 + 5 * (4 / 5)) (1 / 2 + 5 * 0) /\
  clear_towards (Pair 2 2) (V4 (3 / 5) (4 / 5) 0 0) /\ in_open_aperture (Pair 2 2) (0, 0) (-4 + 5 * (4 / 5)) (1 / 2 + 5 * 0) /\
  well_inside (Pair 2 2) (0, 0) (-4 + 5 * (4 / 5)) (1 / 2 + 5 * 0).
Proof.
  unfold clear_towards. cbn [vx vy vz]. simpl. pose proof atol_small. unfold rtol.
  repeat split; try lra; try (apply clear_big; lra); try apply clear_0; try (rewrite Rabs_right; lra).
Qed.
Lemma spherical_infinite : forall t ap off m, ap_ok ap -> spherical_mirror PInf t ap off m = NotANumber /\ spherical_mirror MInf t ap off m = NotANumber.
Proof.
  intros t ap off m A. unfold spherical_mirror. destruct (create_aperture_ok ap 0 A) as (p & Ep). rewrite Ep. split; reflexivity.
Qed.
