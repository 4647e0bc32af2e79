(** * SpecShade: what absorbing parts do to the results
    Specification only. *)
From Coq Require Import Reals List ZArith.
Import ListNotations.
From Verif Require Import XR Lin Surf World Tracer SpecTrace.
Open Scope R_scope.

(** The leg [w] is the leg [v], or its beginning. *)
Definition begins (w v : row) : Prop :=
  row_gen w = row_gen v /\ row_int w = row_int v /\ row_wl w = row_wl v /\ row_idx w = row_idx v /\ row_id w = row_id v /\
  row_start w = row_start v /\ row_tilt w = row_tilt v /\
  exists k, 0 < k <= 1 /\ row_end w = vadd (row_start v) (vscale k (vsub (row_end v) (row_start v))).
(** The rows [with_it] of a ray are the rows [without] of that ray, or they are these up to a leg
    on which the ray was stopped by one of the surfaces [blockers] (perhaps a leg that otherwise
    leads nowhere and has no row). *)
Definition cut_short (blockers : Z -> Prop) (with_it without : list row) : Prop :=
  with_it = without \/
  exists rows w, with_it = rows ++ [w] /\ blockers (row_surf w) /\
    (without = rows \/ exists v later, without = rows ++ v :: later /\ begins w v).
(** [sid] names a surface of one of the components in [ls] that [keep] rejects. *)
Definition screens (h : heap) (keep : loc -> bool) (ls : list loc) (sid : Z) : Prop :=
  exists l X, In l ls /\ keep l = false /\ shape_of h l = Some X /\ In sid (map s_id (surface_ids X)).
