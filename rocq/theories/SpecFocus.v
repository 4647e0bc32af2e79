(** * SpecFocus: where a recorded ray crosses the axis
    Specification only. *)
From Coq Require Import Reals.
From Verif Require Import Lin Tracer.
Open Scope R_scope.

(** examples/lens_design.ipynb, spherical_aberration and chromatic_abberation:
    [-x_tilt * y0 / y_tilt + x0] of the last row of a ray *)
Definition axis_crossing (w : row) : R := - vx (row_tilt w) * vy (row_start w) / vy (row_tilt w) + vx (row_start w).
