(** * FlStep: the step a ray takes off the surface it met, with rounding

    SIMPLIFICATION: as in FlHits.v. *)
From Coq Require Import Reals.
From Verif Require Import Lin Fl FlHits.
Open Scope R_scope.

(** _pyrayt.py:190 [ray_offset_value]: the number written 1e-6, rounded *)
Definition fl_offset (rnd : R -> R) : R := rnd (1 / 1000000).
(** _pyrayt.py:449: [rays[0] += ray_offset_value * rays[1]]; [h] is the offset *)
Definition fl_step (rnd : R -> R) (h : R) (p v : v4) : v4 := vround rnd (vadd p (vround rnd (vscale h v))).
