(** * SpecComponents: what the component factories are supposed to build
    Specification only. *)
From Coq Require Import Reals List Bool.
Import ListNotations.
From Verif Require Import XR Arr Lin LinFacts Prim Csg Surf SpecGeom SpecTree CsgProps World SpecWorld WorldFacts3 Tracer Components.
Open Scope R_scope.

(** A state of the program: what any sequence of constructions and movements by
    invertible affine maps leaves (group members are not reassigned). *)
Definition nice (asort : list xr -> list nat) (h : heap) : Prop :=
  exists cs, run_prog asort cs empty_heap = Ok h /\ Forall no_set cs /\ Forall affine_call cs.

(** [built asort o P]: called in any state, the factory succeeds, and the tree [s] of the
    component it returns satisfies [P s]; its transforms belong together and its boxes
    are current, so that rays meet it as property C04 says. *)
Definition built (asort : list xr -> list nat) (o : outcome) (P : shape -> Prop) : Prop :=
  exists prog l, o = Makes prog l /\
  forall h, nice asort h ->
  exists h' s, run_prog asort (map (shift (length (h_objs h))) prog) h = Ok h' /\
    shape_of h' (length (h_objs h) + l)%nat = Some s /\ tree_ok s /\ boxes_current s /\ P s.

(** The point x, y, z. *)
Definition pt (x y z : R) : v4 := V4 x y z 1.
(** The solid is the set of points [P]. *)
Definition occupies (P : R -> R -> R -> Prop) (s : shape) : Prop :=
  forall x y z, inside s (pt x y z) <-> P x y z.
(** The solid contains [P] and is contained in [Q]: used with the open and the closed
    form of the same region, so only points of its surface are left open. *)
Definition fills (P Q : R -> R -> R -> Prop) (s : shape) : Prop :=
  forall x y z, (P x y z -> inside s (pt x y z)) /\ (inside s (pt x y z) -> Q x y z).

(** The documented apertures: a disk of diameter [d], or a rectangle [a] along y and [b]
    along z, both across the x axis and shifted by [off]. *)
Definition in_aperture (ap : aperture_arg) (off : R * R) (y z : R) : Prop :=
  match ap with
  | Round d => (y - fst off) * (y - fst off) + (z - snd off) * (z - snd off) <= (d / 2) * (d / 2)
  | Pair a b => Rabs (y - fst off) <= a / 2 /\ Rabs (z - snd off) <= b / 2
  end.
Definition ap_ok (ap : aperture_arg) : Prop :=
  match ap with Round d => 0 < d | Pair a b => 0 < a /\ 0 < b end.
(** Seen along the x axis, the solid is exactly the aperture. *)
Definition spans (ap : aperture_arg) (off : R * R) (s : shape) : Prop :=
  forall y z, (exists x, inside s (pt x y z)) <-> in_aperture ap off y z.
(** The largest distance from the axis reached by a centred aperture. *)
Definition reach (ap : aperture_arg) : R :=
  match ap with Round d => d / 2 | Pair a b => sqrt ((a / 2) * (a / 2) + (b / 2) * (b / 2)) end.

(** Height of a spherical surface of signed radius [r] (centre on the +x side if positive)
    over its vertex plane, at the squared distance [q] from the axis; the far side of the
    same sphere; an infinite radius is a plane. *)
Definition sag (r : xr) (q : R) : R :=
  match r with
  | Fin r => if rltb 0 r then r - sqrt (r * r - q) else r + sqrt (r * r - q)
  | _ => 0
  end.
Definition lens_front (r1 : xr) (t q : R) : R := sag r1 q - t / 2.
Definition lens_back (r2 : xr) (t q : R) : R := sag r2 q + t / 2.
(** A radius of a lens surface: not zero, or infinite; the aperture fits it. *)
Definition radius_ok (r : xr) (h : R) : Prop :=
  match r with Fin r => r <> 0 /\ h <= Rabs r | PInf | MInf => True | NaN => False end.
(** A convex side is used only up to the far side of its own sphere. *)
Definition front_reaches (r1 r2 : xr) (t h : R) : Prop :=
  forall r, r1 = Fin r -> 0 < r -> forall q, 0 <= q <= h * h -> lens_back r2 t q <= r + sqrt (r * r - q) - t / 2.
Definition back_reaches (r1 r2 : xr) (t h : R) : Prop :=
  forall r, r2 = Fin r -> r < 0 -> forall q, 0 <= q <= h * h -> r - sqrt (r * r - q) + t / 2 <= lens_front r1 t q.

(** A triangle in the plane, by the weights of its corners. *)
Definition in_triangle (a b c : R * R) (x z : R) : Prop :=
  exists wa wb wc, 0 <= wa /\ 0 <= wb /\ 0 <= wc /\ wa + wb + wc = 1 /\
    x = wa * fst a + wb * fst b + wc * fst c /\ z = wa * snd a + wb * snd b + wc * snd c.
Definition strictly_in_triangle (a b c : R * R) (x z : R) : Prop :=
  exists wa wb wc, 0 < wa /\ 0 < wb /\ 0 < wc /\ wa + wb + wc = 1 /\
    x = wa * fst a + wb * fst b + wc * fst c /\ z = wa * snd a + wb * snd b + wc * snd c.
Definition dist2 (a b : R * R) : R := sqrt ((fst a - fst b) * (fst a - fst b) + (snd a - snd b) * (snd a - snd b)).

(** The open aperture. *)
Definition in_open_aperture (ap : aperture_arg) (off : R * R) (y z : R) : Prop :=
  match ap with
  | Round d => (y - fst off) * (y - fst off) + (z - snd off) * (z - snd off) < (d / 2) * (d / 2)
  | Pair a b => Rabs (y - fst off) < a / 2 /\ Rabs (z - snd off) < b / 2
  end.
(** In a scene that holds only the component [s], the tracer sends the ray [c] to its
    first hit on [s] and continues with [c']. *)
Definition bounce (asort : list xr -> list nat) (s : shape) (c c' : col) : Prop :=
  exists t f, propagate asort [s] c = (Fin t, s_id f) /\ In f (surface_ids s) /\ material_trace f (forward t c) = Some c'.
(** Directions the hit code treats exactly. *)
Definition clear_towards (ap : aperture_arg) (d : v4) : Prop :=
  clear (vx d) /\ clear (vy d) /\ clear (vz d) /\
  match ap with Round _ => clear (vy d * vy d + vz d * vz d) | Pair _ _ => True end.
(** Inside the aperture and, for a rectangle, not within numpy's isclose band at its rim. *)
Definition well_inside (ap : aperture_arg) (off : R * R) (y z : R) : Prop :=
  match ap with
  | Round _ => in_open_aperture ap off y z
  | Pair a b => Rabs (y - fst off) < a / 2 - (atol + rtol * (a / 2)) /\ Rabs (z - snd off) < b / 2 - (atol + rtol * (b / 2))
  end.
