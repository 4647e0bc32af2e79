(** * SpecPixel: what one component puts forward for a pixel
    Specification only. *)
From Coq Require Import Reals List Bool ZArith.
Import ListNotations.
From Verif Require Import XR Lin Prim Csg Surf Tracer Render.
Open Scope R_scope.

(** The distance and surface a component puts forward for a ray: its first hit ahead, or,
    if it has no hit ahead, the first entry of its answer, wherever that is. *)
Definition puts_forward (asort : list xr -> list nat) (s : shape) (r : ray) (x : xr) (sid : Z) : Prop :=
  let hits := fst (shape_intersect asort s r) in
  let ids := snd (shape_intersect asort s r) in
  (exists k t, x = Fin t /\ 0 < t /\ nth_error hits k = Some (Fin t) /\ nth_error ids k = Some sid /\
     forall k' t', nth_error hits k' = Some (Fin t') -> 0 < t' -> t < t' \/ (t = t' /\ (k <= k')%nat)) \/
  ((forall t, In (Fin t) hits -> t <= 0) /\ nth_error hits 0 = Some x /\ nth_error ids 0 = Some sid).

(** No component answers the ray with hits that are all behind its start: each has a hit
    ahead, or the first entry of its answer is no hit. *)
Definition none_behind (asort : list xr -> list nat) (shapes : list shape) (r : ray) : Prop :=
  forall s x, In s shapes -> nth_error (fst (shape_intersect asort s r)) 0 = Some x ->
  (exists t, In (Fin t) (fst (shape_intersect asort s r)) /\ 0 < t) \/ x = PInf \/ x = NaN.
