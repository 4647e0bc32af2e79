(** * SpecReverse: rays sent back the way they came
    Specification only. *)
From Coq Require Import Reals List Bool ZArith.
Import ListNotations.
From Verif Require Import XR Lin Prim SpecGeom Surf World Tracer SpecTrace SpecCrossing SpecMedium.
Open Scope R_scope.

(** The source's ray [c] starts at a point of the row [w], in its medium and of its wavelength, against its direction *)
Definition sent_back (w : row) (c : col) : Prop :=
  c_wl c = row_wl w /\ c_idx c = row_idx w /\ direction (c_ray c) = vopp (row_tilt w) /\
  exists s len, row_end w = vadd (row_start w) (vscale len (row_tilt w)) /\ 0 <= s <= len /\ origin (c_ray c) = ray_at (way w) s.
(** The ray the tracer sends back along the row [w] from its end *)
Definition returned (w : row) : ray :=
  Ray (here (vadd (row_end w) (vscale ray_offset_value (vopp (row_tilt w))))) (vopp (row_tilt w)).
(** The row [v] runs against the row [w], in the same medium *)
Definition against (w v : row) : Prop := row_tilt v = vopp (row_tilt w) /\ row_idx v = row_idx w.
(** It ends where and at what the row [w0] before [w] ended *)
Definition ends_like (w0 v : row) : Prop := here (row_end v) = here (row_end w0) /\ row_surf v = row_surf w0.
