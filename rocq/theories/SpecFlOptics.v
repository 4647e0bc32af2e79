(** * SpecFlOptics: the laws of reflection and refraction, up to an error
    Specification only. *)
From Coq Require Import Reals List Bool.
From Verif Require Import XR Lin SpecOptics.
Open Scope R_scope.

(** [d] is the mirror image of [v] in the plane with normal [n], up to [e] *)
Definition nearly_mirrored (e : R) (v d n : v4) : Prop :=
  Rabs (vdot d n + vdot v n) <= e /\ vnorm (vsub (tangential d n) (tangential v n)) <= e.

(** What an interface with unit normal [n], between a medium of index [n2] behind it and a world of
    index [n_global] before it, makes of a ray along [v] in a medium of index [n1]: it goes on along [d]
    in a medium of index [index], all up to [e].
    The ray leaves along the normal or enters against it; the next index is that of the side it goes to.
    Either the tangential components times the indices agree (which is Snell's law, in the plane of
    incidence) and [d] is on the same side of the interface as [v], or the sine of the
    angle of incidence is at or beyond the critical one and [d] is the mirror image. *)
Definition nearly_lawful (e : R) (v n : v4) (n1 n2 n_global : R) (d : v4) (index : R) : Prop :=
  exists leaving : bool,
  let m := if leaving then n_global else n2 in
  let side := if leaving then 1 else -1 in
  - e <= side * vdot (hat v) n /\
  ((index = m /\ n1 * vnorm (tangential (hat v) n) <= (1 + e) * m /\
    vnorm (vsub (vscale n1 (tangential (hat v) n)) (vscale m (tangential d n))) <= e * m /\ - e <= side * vdot d n) \/
   (index = n1 /\ (1 - e) * m <= n1 * vnorm (tangential (hat v) n) /\ nearly_mirrored e (hat v) d n)).
