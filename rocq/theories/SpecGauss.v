(** * SpecGauss: what the theorems about rays near the axis of a lens say
    Specification only. *)
From Coq Require Import Reals List ZArith.
Import ListNotations.
From Verif Require Import XR Lin Prim Surf SpecComponents Components Tracer SpecUtils.
Open Scope R_scope.

(** A ray in the plane spanned by the x axis and the unit vector (ey, ez) across it: it starts
    at [x] with height [y] and has the slope [dy/dx]. *)
Definition meridional (ey ez x y dx dy : R) : ray :=
  Ray (V4 x (y * ey) (y * ez) 1) (V4 dx (dy * ey) (dy * ez) 0).
(** The unit direction with slope [u] in that plane *)
Definition sloped (ey ez x y u : R) : ray :=
  meridional ey ez x y (/ sqrt (1 + u * u)) (u / sqrt (1 + u * u)).

(** A lens of thickness [t] whose rim is [h] from the axis: the sizes numpy can tell from zero, and
    the far side of the sphere of a convex face lies beyond the lens. *)
Definition lens_fits (r1 r2 : xr) (t h : R) : Prop :=
  radius_ok r1 h /\ radius_ok r2 h /\ 1 / 1000000 < t /\
  (forall r, r1 = Fin r -> 0 < r -> forall q, 0 <= q <= h * h -> lens_back r2 t q < 2 * r - t / 2) /\
  (forall r, r2 = Fin r -> r < 0 -> t / 2 + 2 * r < - (t / 2)).
Definition rim_clear (ap : aperture_arg) : Prop :=
  match ap with Round _ => True | Pair a b => 1 / 1000000 < a /\ 1 / 1000000 < b end.

(** An absorbing plane across the axis at [d], turned by a quarter about y: [baffle((w, l)).move_x(d)] *)
Definition screen_at (d : R) (b : shape) : Prop :=
  exists g bx w l, b = Leaf g bx /\ s_prim g = PPlane w l /\ 0 < w /\ 0 < l /\ s_mat g = Absorber /\
    s_world g = M4 (V4 0 0 1 d) (V4 0 1 0 0) (V4 (-1) 0 0 0) (V4 0 0 0 1).

(** What Gaussian optics says about the ray with height [h] and slope [u] at [x0]: its height at [d],
    behind a lens with curvatures [k1], [k2], index [n] and thickness [t] centred at the origin. *)
Definition gauss (k1 k2 n t x0 d : R) : m2 :=
  m2_mul (travel (d - t / 2)) (m2_mul (lens_matrix k1 k2 n t) (travel (- (t / 2) - x0))).
Definition height_of (a : m2) (h u : R) : R := mA a * h + mB a * u.
