(** * Properties C53 and C54, exactly: which solid the lens factories make *)
From Coq Require Import Reals List Bool ZArith Lra.
From Verif Require Import XR XRFacts Arr Lin Prim Csg Surf SpecGeom SpecTree CsgProps World SpecWorld
  Components SpecComponents SpecLens LensExact.
Open Scope R_scope.

(** ** C53 *)
(** Every lens with finite or infinite radii, its convex sides of any depth and narrower than
    the aperture or not: the points in the aperture, no further out than the rims of the
    hollow sides, on the glass side of both spheres. *)
Theorem C53_thick_lens_exactly :
  forall asort r1 r2 t ap m, argsort_ok asort -> ap_ok ap -> 0 <= t ->
  side_ok (fun r => r < 0) r1 (reach ap) -> side_ok (fun r => 0 < r) r2 (reach ap) ->
  built asort (thick_lens r1 r2 t ap m) (occupies (fun x y z =>
    in_aperture ap (0, 0) y z /\ - (t / 2 + front_rim r1 (reach ap)) <= x <= t / 2 + back_rim r2 (reach ap) /\
    behind_front r1 t x y z /\ before_back r2 t x y z)).
Proof. exact thick_lens_is. Qed.
Print Assumptions C53_thick_lens_exactly.

(** a ball lens in an aperture wider than itself *)
Example C53_exactly_hypotheses : ap_ok (Round 4) /\ side_ok (fun r => r < 0) (Fin 1) (reach (Round 4)) /\
  side_ok (fun r => 0 < r) (Fin (-1)) (reach (Round 4)) /\ reach (Round 4) > Rabs (-1) /\
  behind_front (Fin 1) 2 0 0 (1 / 2) /\ before_back (Fin (-1)) 2 0 0 (1 / 2) /\ ~ behind_front (Fin 1) 2 0 0 (3 / 2).
Proof.
  simpl. assert (rltb 0 1 = true) by (apply rltb_true; lra). assert (rltb (-1) 0 = true) by (apply rltb_true; lra). rewrite H, H0.
  rewrite (Rabs_left (-1)) by lra. repeat split; intros; lra.
Qed.

(** The solid asked for, between the two surfaces, is the one made exactly when nowhere in
    the aperture the glass reaches beyond the far side of a convex side's own sphere. *)
Theorem C53_as_asked_exactly_when :
  forall asort r1 r2 t ap m, argsort_ok asort -> ap_ok ap -> 0 <= t ->
  radius_ok r1 (reach ap) -> radius_ok r2 (reach ap) ->
  built asort (thick_lens r1 r2 t ap m) (fun s => fills
    (fun x y z => in_aperture ap (0, 0) y z /\ lens_front r1 t (y * y + z * z) < x < lens_back r2 t (y * y + z * z))
    (fun x y z => in_aperture ap (0, 0) y z /\ lens_front r1 t (y * y + z * z) <= x <= lens_back r2 t (y * y + z * z)) s
    <-> (forall y z, in_aperture ap (0, 0) y z -> lens_front r1 t (y * y + z * z) < lens_back r2 t (y * y + z * z) ->
           before_far_front r1 t (y * y + z * z) (lens_back r2 t (y * y + z * z)) /\
           after_far_back r2 t (y * y + z * z) (lens_front r1 t (y * y + z * z)))).
Proof. exact thick_lens_iff. Qed.
Print Assumptions C53_as_asked_exactly_when.

(** both cases occur: a plano-convex lens of radius 1 and thickness 1/2 or 3 *)
Example C53_both_occur : ap_ok (Round 1) /\ radius_ok (Fin 1) (reach (Round 1)) /\ radius_ok PInf (reach (Round 1)) /\
  (forall y z, in_aperture (Round 1) (0, 0) y z -> before_far_front (Fin 1) (1 / 2) (y * y + z * z) (lens_back PInf (1 / 2) (y * y + z * z))) /\
  ~ (forall y z, in_aperture (Round 1) (0, 0) y z -> lens_front (Fin 1) 3 (y * y + z * z) < lens_back PInf 3 (y * y + z * z) ->
      before_far_front (Fin 1) 3 (y * y + z * z) (lens_back PInf 3 (y * y + z * z))).
Proof.
  assert (L : rltb 0 1 = true) by (apply rltb_true; lra). simpl. rewrite Rabs_right by lra. split; [lra|]. split; [lra|]. split; [exact I|]. split.
  - intros y z _ r E _. injection E as <-. unfold lens_back, sag. pose proof (sqrt_pos (1 * 1 - (y * y + z * z))). lra.
  - intro F. specialize (F 0 0 ltac:(lra)). unfold lens_front, lens_back, sag, before_far_front in F. rewrite L in F.
    replace (1 * 1 - (0 * 0 + 0 * 0)) with (1 * 1) in F by ring. rewrite sqrt_square in F by lra. specialize (F ltac:(lra) 1 eq_refl ltac:(lra)).
    replace (1 * 1 - (0 * 0 + 0 * 0)) with (1 * 1) in F by ring. rewrite sqrt_square in F by lra. lra.
Qed.

(** ** C54 *)
(** Any two radii: the front sphere is centred as the first radius asks but has the second;
    the back sphere has the first radius and the centre opposite to it. *)
Theorem C54_biconvex_exactly :
  forall asort r1 r2 t ap m, argsort_ok asort -> ap_ok ap -> 0 <= t -> r1 <> 0 -> r2 <> 0 ->
  built asort (biconvex_lens (Fin r1) (Fin r2) t ap m) (occupies (fun x y z =>
    in_aperture ap (0, 0) y z /\ - (t / 2) <= x <= t / 2 /\
    (x - (r1 - t / 2)) * (x - (r1 - t / 2)) + y * y + z * z <= r2 * r2 /\
    (x - (t / 2 - r1)) * (x - (t / 2 - r1)) + y * y + z * z <= r1 * r1)).
Proof. exact biconvex_is. Qed.
Print Assumptions C54_biconvex_exactly.

(** The lens is as thick on its axis as was asked for exactly when the second radius is not
    the smaller and the first is positive and at least half the thickness. *)
Theorem C54_thickness_exactly :
  forall asort r1 r2 t ap m, argsort_ok asort -> ap_ok ap -> 0 < t -> r1 <> 0 -> r2 <> 0 ->
  built asort (biconvex_lens (Fin r1) (Fin r2) t ap m) (fun s =>
    inside s (pt (- (t / 2)) 0 0) /\ inside s (pt (t / 2) 0 0) <-> Rabs r1 <= Rabs r2 /\ t <= 2 * r1).
Proof. exact biconvex_vertices. Qed.
Print Assumptions C54_thickness_exactly.

(** Among positive radii that fit the aperture and the thickness, the lens has the radii
    asked for exactly when they are equal. *)
Theorem C54_as_asked_exactly_when :
  forall asort r1 r2 t ap m, argsort_ok asort -> ap_ok ap -> 0 < t -> 0 < r1 -> 0 < r2 -> t < 2 * r1 ->
  reach ap <= r1 -> reach ap <= r2 -> front_reaches (Fin r1) (Fin (- r2)) t (reach ap) -> back_reaches (Fin r1) (Fin (- r2)) t (reach ap) ->
  built asort (biconvex_lens (Fin r1) (Fin r2) t ap m) (fun s => fills
    (fun x y z => in_aperture ap (0, 0) y z /\ lens_front (Fin r1) t (y * y + z * z) < x < lens_back (Fin (- r2)) t (y * y + z * z))
    (fun x y z => in_aperture ap (0, 0) y z /\ lens_front (Fin r1) t (y * y + z * z) <= x <= lens_back (Fin (- r2)) t (y * y + z * z)) s
    <-> r1 = r2).
Proof. exact biconvex_asked. Qed.
Print Assumptions C54_as_asked_exactly_when.

(** radii 10 and 20, an aperture of 4 and a thickness of 1 *)
Example C54_exactly_hypotheses : 1 < 2 * 10 /\ reach (Round 4) <= 10 /\ reach (Round 4) <= 20 /\
  front_reaches (Fin 10) (Fin (- (20))) 1 (reach (Round 4)) /\ back_reaches (Fin 10) (Fin (- (20))) 1 (reach (Round 4)).
Proof.
  assert (S : forall r q, 2 <= r -> 0 <= q <= 2 * 2 -> 0 <= sqrt (r * r - q) <= r).
  { intros r q H Q. split; [apply sqrt_pos|]. apply Rle_trans with (sqrt (r * r)); [apply sqrt_le_1_alt; lra|rewrite sqrt_square; lra]. }
  assert (E : reach (Round 4) = 2) by (simpl; lra). rewrite E. split; [lra|]. split; [lra|]. split; [lra|].
  assert (L : rltb 0 10 = true) by (apply rltb_true; lra). assert (L' : rltb 0 (- (20)) = false) by (apply rltb_false; lra).
  split; intros r Er Pr q Q; injection Er as <-; unfold lens_back, lens_front, sag; rewrite ?L, ?L'; pose proof (S 10 q ltac:(lra) Q); pose proof (S 20 q ltac:(lra) Q);
    replace (- (20) * - (20)) with (20 * 20) by ring; lra.
Qed.
