(** * Properties C52..C55, C59, C76: what the component factories build *)
From Coq Require Import Reals List Bool ZArith Lra.
Import ListNotations.
From Verif Require Import XR XRFacts Arr Lin LinFacts Prim Csg Surf SpecGeom SpecTree CsgProps World SpecWorld
  Components SpecComponents ComponentFacts ComponentFacts2 ComponentFacts3 ComponentFacts4 ComponentProps.
Open Scope R_scope.

(** Every theorem below quantifies over the states [nice asort] a program can be in when
    it calls the factory; the state at the start is one of them. *)
Example components_start : forall asort, nice asort empty_heap.
Proof. intro asort. exists []. repeat split; constructor. Qed.

(** ** C52 *)
(** Lenses and mirrors span their aperture: its first number along y, its second along z.
    Missing: baffles, for which it is false, see the refutation. *)
Theorem C52_lenses_and_mirrors_span_their_aperture_partial :
  forall asort t ap m, argsort_ok asort -> ap_ok ap -> 0 < t ->
  (forall r1 r2, radius_ok r1 (reach ap) -> radius_ok r2 (reach ap) ->
     front_reaches r1 r2 t (reach ap) -> back_reaches r1 r2 t (reach ap) ->
     (forall q, 0 <= q <= reach ap * reach ap -> lens_front r1 t q < lens_back r2 t q) ->
     built asort (thick_lens r1 r2 t ap m) (spans ap (0, 0))) /\
  (forall off, built asort (plane_mirror t ap off m) (spans ap off)) /\
  (forall r off, r <> 0 -> sqrt (fst off * fst off + snd off * snd off) + reach ap <= Rabs r ->
     built asort (spherical_mirror (Fin r) t ap off m) (spans ap off)) /\
  (forall f off, 0 < f -> built asort (parabolic_mirror f t ap off m) (spans ap off)).
Proof. exact components_span. Qed.
Print Assumptions C52_lenses_and_mirrors_span_their_aperture_partial.

(** the stop made by [aperture] spans its size as well; its opening is a hole in it *)
Theorem C52_aperture_stop :
  forall asort a b op, argsort_ok asort -> 0 <= a -> 0 <= b -> ap_ok op ->
  built asort (aperture (Pair a b) op) (occupies (fun x y z =>
    x = 0 /\ in_aperture (Pair a b) (0, 0) y z /\ ~ in_aperture op (0, 0) y z)).
Proof. exact stop_solid. Qed.
Print Assumptions C52_aperture_stop.

Example C52_hypotheses :
  ap_ok (Pair 1 2) /\ radius_ok (Fin 10) (reach (Pair 1 2)) /\ radius_ok PInf (reach (Pair 1 2)) /\
  front_reaches (Fin 10) PInf 1 (reach (Pair 1 2)) /\ back_reaches (Fin 10) PInf 1 (reach (Pair 1 2)) /\
  (forall q, 0 <= q <= reach (Pair 1 2) * reach (Pair 1 2) -> lens_front (Fin 10) 1 q < lens_back PInf 1 q) /\
  sqrt (3 * 3 + 4 * 4) + reach (Round 2) <= Rabs (-10).
Proof. exact span_example. Qed.

(** C52 fails for baffles: one of size (a, b) is b wide along y and a along z. *)
Theorem C52_baffle_is_turned_refuted :
  forall asort, argsort_ok asort ->
  (forall a b, 0 <= a -> 0 <= b -> built asort (baffle (Pair a b)) (spans (Pair b a) (0, 0))) /\
  built asort (baffle (Pair 1 2)) (fun s => ~ spans (Pair 1 2) (0, 0) s).
Proof. exact baffle_is_turned. Qed.
Print Assumptions C52_baffle_is_turned_refuted.

(** ** C53 *)
(** The lens is the set of points in the aperture between its two surfaces; only points of
    the surfaces are left open.  Missing: convex sides used beyond the widest part of their
    own sphere, where it is false, see the refutation. *)
Theorem C53_thick_lens_is_the_solid_between_its_surfaces_partial :
  forall asort r1 r2 t ap m, argsort_ok asort -> ap_ok ap -> 0 <= t ->
  radius_ok r1 (reach ap) -> radius_ok r2 (reach ap) ->
  front_reaches r1 r2 t (reach ap) -> back_reaches r1 r2 t (reach ap) ->
  built asort (thick_lens r1 r2 t ap m) (fills
    (fun x y z => in_aperture ap (0, 0) y z /\ lens_front r1 t (y * y + z * z) < x < lens_back r2 t (y * y + z * z))
    (fun x y z => in_aperture ap (0, 0) y z /\ lens_front r1 t (y * y + z * z) <= x <= lens_back r2 t (y * y + z * z))).
Proof. exact thick_lens_solid. Qed.
Print Assumptions C53_thick_lens_is_the_solid_between_its_surfaces_partial.

(** a meniscus, a biconcave lens and a plate *)
Example C53_hypotheses :
  let ap := Round 4 in
  (radius_ok (Fin 10) (reach ap) /\ radius_ok (Fin 20) (reach ap) /\ front_reaches (Fin 10) (Fin 20) 1 (reach ap) /\ back_reaches (Fin 10) (Fin 20) 1 (reach ap)) /\
  (radius_ok (Fin (-5)) (reach ap) /\ radius_ok (Fin 5) (reach ap) /\ front_reaches (Fin (-5)) (Fin 5) 1 (reach ap) /\ back_reaches (Fin (-5)) (Fin 5) 1 (reach ap)) /\
  (radius_ok PInf (reach ap) /\ front_reaches PInf PInf 1 (reach ap) /\ back_reaches PInf PInf 1 (reach ap)).
Proof. exact lens_example. Qed.

(** C53 fails for a lens thicker than its own sphere. *)
Theorem C53_lens_thicker_than_its_sphere_refuted :
  forall asort m, argsort_ok asort ->
  built asort (thick_lens (Fin 1) PInf 3 (Round 1) m) (fun s =>
    in_aperture (Round 1) (0, 0) 0 0 /\ lens_front (Fin 1) 3 (0 * 0 + 0 * 0) < 14 / 10 < lens_back PInf 3 (0 * 0 + 0 * 0) /\
    ~ inside s (pt (14 / 10) 0 0)).
Proof. exact deep_lens. Qed.
Print Assumptions C53_lens_thicker_than_its_sphere_refuted.

(** ** C54 *)
(** With two equal positive radii, and for plano-convex lenses, the solid is the one asked
    for.  Missing: different radii and negative radii, where it is false, see below. *)
Theorem C54_biconvex_with_equal_radii_partial :
  forall asort r t ap m, argsort_ok asort -> ap_ok ap -> 0 <= t -> reach ap <= r ->
  front_reaches (Fin r) (Fin (- r)) t (reach ap) -> back_reaches (Fin r) (Fin (- r)) t (reach ap) ->
  built asort (biconvex_lens (Fin r) (Fin r) t ap m) (fills
    (fun x y z => in_aperture ap (0, 0) y z /\ lens_front (Fin r) t (y * y + z * z) < x < lens_back (Fin (- r)) t (y * y + z * z))
    (fun x y z => in_aperture ap (0, 0) y z /\ lens_front (Fin r) t (y * y + z * z) <= x <= lens_back (Fin (- r)) t (y * y + z * z))).
Proof. exact biconvex_solid. Qed.
Print Assumptions C54_biconvex_with_equal_radii_partial.

Theorem C54_plano_convex :
  forall asort r t ap m, argsort_ok asort -> ap_ok ap -> 0 <= t -> reach ap <= r ->
  back_reaches PInf (Fin (- r)) t (reach ap) ->
  built asort (plano_convex_lens (Fin r) t ap m) (fills
    (fun x y z => in_aperture ap (0, 0) y z /\ lens_front PInf t (y * y + z * z) < x < lens_back (Fin (- r)) t (y * y + z * z))
    (fun x y z => in_aperture ap (0, 0) y z /\ lens_front PInf t (y * y + z * z) <= x <= lens_back (Fin (- r)) t (y * y + z * z))).
Proof. exact plano_solid. Qed.
Print Assumptions C54_plano_convex.

Example C54_hypotheses : reach (Round 4) <= 10 /\
  front_reaches (Fin 10) (Fin (- (10))) 1 (reach (Round 4)) /\ back_reaches (Fin 10) (Fin (- (10))) 1 (reach (Round 4)) /\
  back_reaches PInf (Fin (- (10))) 1 (reach (Round 4)).
Proof. exact biconvex_example. Qed.

(** C54 fails for different radii: [biconvex_lens(2, 1, 1)] is a single point, although
    the lens asked for holds a ball around the origin. *)
Theorem C54_different_radii_refuted :
  forall asort m, argsort_ok asort ->
  built asort (biconvex_lens (Fin 2) (Fin 1) 1 (Round 1) m) (occupies (fun x y z => x = 1 / 2 /\ y = 0 /\ z = 0)) /\
  (forall x y z, x * x + y * y + z * z < 1 / 100 ->
     in_aperture (Round 1) (0, 0) y z /\ lens_front (Fin 2) 1 (y * y + z * z) < x < lens_back (Fin (-1)) 1 (y * y + z * z)).
Proof. exact biconvex_point. Qed.
Print Assumptions C54_different_radii_refuted.

(** C54 fails for negative radii: the lens is empty. *)
Theorem C54_negative_radii_refuted :
  forall asort r1 r2 t ap m, argsort_ok asort -> ap_ok ap -> 0 < t -> r1 < 0 -> r2 = r1 ->
  built asort (biconvex_lens (Fin r1) (Fin r2) t ap m) (occupies (fun _ _ _ => False)).
Proof. exact biconvex_negative. Qed.
Print Assumptions C54_negative_radii_refuted.

(** ** C55 *)
(** Numbers and pairs of positive numbers give disks and rectangles; any other pair raises
    TypeError.  Missing: pairs of negative numbers should give ellipses. *)
Theorem C55_disks_and_rectangles_partial :
  forall asort, argsort_ok asort ->
  (forall d t off m, 0 < d -> 0 <= t -> built asort (plane_mirror t (Round d) off m) (occupies (fun x y z =>
     (y - fst off) * (y - fst off) + (z - snd off) * (z - snd off) <= (d / 2) * (d / 2) /\ - (t / 2) <= x <= t / 2))) /\
  (forall a b t off m, 0 < a -> 0 < b -> 0 <= t -> built asort (plane_mirror t (Pair a b) off m) (occupies (fun x y z =>
     (Rabs (y - fst off) <= a / 2 /\ Rabs (z - snd off) <= b / 2) /\ - (t / 2) <= x <= t / 2))) /\
  (forall a b, a <= 0 \/ b <= 0 -> forall r1 r2 t off m f,
     thick_lens r1 r2 t (Pair a b) m = TypeError /\ biconvex_lens r1 r2 t (Pair a b) m = TypeError /\
     plano_convex_lens r1 t (Pair a b) m = TypeError /\ plane_mirror t (Pair a b) off m = TypeError /\
     spherical_mirror r1 t (Pair a b) off m = TypeError /\ (f <> 0 -> parabolic_mirror f t (Pair a b) off m = TypeError) /\
     forall size, aperture size (Pair a b) = TypeError).
Proof. exact apertures_built. Qed.
Print Assumptions C55_disks_and_rectangles_partial.
Example C55_hypotheses : argsort_ok (argsort_stable xsle PInf) /\ 0 < 25 / 10 /\ 0 <= 0 /\ 0 < 1 /\ (-1 <= 0 \/ 2 <= 0).
Proof. split; [exact argsort_ok_stable|lra]. Qed.

(** C55 fails for ellipses, and for baffles given a number. *)
Theorem C55_ellipses_and_round_baffles_refuted :
  (forall a b r1 r2 t m, 0 < a -> 0 < b -> thick_lens r1 r2 t (Pair (- a) (- b)) m = TypeError) /\
  (forall d, baffle (Round d) = TypeError) /\
  (forall d op, aperture (Round d) op = TypeError).
Proof. exact apertures_refused. Qed.
Print Assumptions C55_ellipses_and_round_baffles_refuted.

(** ** C59 *)
Theorem C59_prism :
  forall asort side width m, argsort_ok asort -> 0 < side -> 0 < width ->
  let h := sqrt 3 / 2 * side in
  let a := (- (side / 2), - (h / 2)) in let b := (side / 2, - (h / 2)) in let c := (0, h / 2) in
  built asort (equilateral_prism side width m) (fills
    (fun x y z => Rabs y <= width / 2 /\ strictly_in_triangle a b c x z)
    (fun x y z => Rabs y <= width / 2 /\ in_triangle a b c x z)) /\
  dist2 a b = side /\ dist2 b c = side /\ dist2 c a = side.
Proof. exact prism_solid. Qed.
Print Assumptions C59_prism.
Example C59_hypotheses : argsort_ok (argsort_stable xsle PInf) /\ 0 < 2 /\ 0 < 1 / 2.
Proof. split; [exact argsort_ok_stable|lra]. Qed.

(** ** C76 *)
(** Where the documentation says components are placed: the first surface of a plane mirror
    at x = -thickness and the second at x = 0; the triangular faces of a prism parallel to
    the YZ plane.  The code centres the mirror, and the triangular faces of the prism are
    parallel to the XZ plane. *)
Theorem C76_documented_placement_refuted :
  forall asort, argsort_ok asort ->
  (forall t ap m, ap_ok ap -> 0 < t -> built asort (plane_mirror t ap (0, 0) m) (fun s =>
     inside s (pt (t / 2) 0 0) /\ ~ inside s (pt (- t) 0 0))) /\
  (forall side width m, 0 < side -> 0 < width -> built asort (equilateral_prism side width m) (fun s =>
     exists z, inside s (pt 0 0 z) /\ ~ inside s (pt (side * 4 / 10) 0 z) /\ forall y, Rabs y <= width / 2 -> inside s (pt 0 y z))).
Proof. exact documented_placement. Qed.
Print Assumptions C76_documented_placement_refuted.
