(** * SpecRod: rods of glass and reflecting tubes
    Specification only. *)
From Coq Require Import Reals List ZArith.
From Verif Require Import XR Lin Prim Surf SpecComponents SpecEdges SpecMotion Tracer SpecTrace.
Open Scope R_scope.

(** The surface is a cylinder of radius [r] with its caps, moved and rotated in any way.  Its axis runs through [c] in the
    unit direction [e]; the caps are at the heights [lo] and [hi] over [c].  Its normals point outwards *)
Definition rod (f : surf) (c e : v4) (r lo hi : R) : Prop :=
  0 < r /\ s_prim f = PCylinder r lo hi true /\ isometry (s_world f) /\ mapply (s_world f) (pt 0 0 0) = c /\
  mapply (s_world f) (V4 0 0 1 0) = e /\ s_nscale f = 1.
(** How high over [c] the point [x] is, and the way to it from the axis *)
Definition height (c e x : v4) : R := vdot (vsub x c) e.
Definition off_axis (c e x : v4) : v4 := vsub (vsub x c) (vscale (height c e x) e).

(** A leg that ends on the side of the rod, away from the rims; on the lower cap, inside the rim; on the upper cap *)
Definition ends_on_side (f : surf) (c e : v4) (r lo hi : R) (w : row) : Prop :=
  let x := here (row_end w) in
  row_surf w = s_id f /\ vdot (off_axis c e x) (off_axis c e x) = r * r /\ ~ near (height c e x) lo /\ ~ near (height c e x) hi.
Definition ends_on_base (f : surf) (c e : v4) (r lo : R) (w : row) : Prop :=
  let x := here (row_end w) in row_surf w = s_id f /\ vdot (off_axis c e x) (off_axis c e x) < r * r /\ height c e x = lo.
Definition ends_on_top (f : surf) (c e : v4) (hi : R) (w : row) : Prop :=
  row_surf w = s_id f /\ height c e (here (row_end w)) = hi.

(** What a leg has along the axis, and along the way from the axis at its end (the radius times the cosine of incidence) *)
Definition axial (e : v4) (w : row) : R := vdot (row_tilt w) e.
Definition radial (c e : v4) (w : row) : R := vdot (row_tilt w) (off_axis c e (here (row_end w))).

(** The side cannot be passed by a leg: it is a mirror; or the leg runs inside a glass so flat to the side that Snell's law
    allows no angle outside *)
Definition held (f : surf) (c e : v4) (r : R) (w : row) : Prop :=
  s_mat f = Mirror \/
  (exists idx, s_mat f = Refractor idx) /\ 0 < radial c e w /\ 1 <= row_idx w * sqrt (1 - (radial c e w / r) * (radial c e w / r)).
