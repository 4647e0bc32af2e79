(** * SpecStop: what a baffle or an aperture stop does to a ray *)
From Coq Require Import Reals List ZArith Sorted.
Import ListNotations.
From Verif Require Import XR Lin Prim Surf SpecGeom Tracer Components SpecComponents.
Open Scope R_scope.

(** Equal numbers stay in their order: what [np.argsort(..., kind="stable")] adds to the
    promise of [np.argsort]. *)
Definition keeps_ties (asort : list xr -> list nat) : Prop :=
  forall l, StronglySorted (fun i j => nth i l PInf = nth j l PInf -> (i < j)%nat) (asort l).
(** Alone in a scene with [s], the ray [c] is taken to the point it reaches after [q] of its
    direction vectors, and stopped there by an absorbing surface of [s]. *)
Definition absorbed_at (asort : list xr -> list nat) (s : shape) (c : col) (q : R) : Prop :=
  exists f, propagate asort [s] c = (Fin q, s_id f) /\ In f (surface_ids s) /\ s_mat f = Absorber /\
    exists c', material_trace f (forward q c) = Some c' /\ origin (c_ray c') = ray_at (c_ray c) q /\ direction (c_ray c') = V4 0 0 0 0.
(** [s] does not stop the ray [c]: nothing of it is hit. *)
Definition let_by (asort : list xr -> list nat) (s : shape) (c : col) : Prop := propagate asort [s] c = (PInf, (-1)%Z).
(** Directions none of whose components is taken for zero although it is not. *)
Definition clear_vector (d : v4) : Prop := clear_towards (Pair 1 1) d.
