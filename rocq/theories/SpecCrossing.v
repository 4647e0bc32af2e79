(** * SpecCrossing: where a ray first enters or leaves a solid
    Specification only. *)
From Coq Require Import Reals List Bool ZArith.
Import ListNotations.
From Verif Require Import XR XRFacts Lin Prim Csg Surf SpecGeom SpecTree.
Open Scope R_scope.

(** [P] holds between [a] and [b], up to finitely many points *)
Definition mostly (P : R -> Prop) (a b : R) : Prop := exists L, forall t, a < t < b -> ~ In t L -> P t.
(** Between [a] and [b] nothing changes *)
Definition steady (P : R -> Prop) (a b : R) : Prop := mostly P a b \/ mostly (fun t => ~ P t) a b.
(** At [q] the ray goes from [P] to [Q] *)
Definition passes (P Q : R -> Prop) (q : R) : Prop :=
  exists eps, 0 < eps /\ (forall t, q - eps < t < q -> P t) /\ (forall t, q < t < q + eps -> Q t).
Definition crosses (P : R -> Prop) (q : R) : Prop := passes P (fun t => ~ P t) q \/ passes (fun t => ~ P t) P q.

(** Components: a sheet (one plane, e.g. a baffle), or a solid without planes *)
Definition is_plane (p : prim) : bool := match p with PPlane _ _ => true | _ => false end.
Definition sheet (s : shape) : bool := match s with Leaf f _ => is_plane (s_prim f) | Node _ _ _ _ _ => false end.
Definition body (s : shape) : Prop := sheet s = true \/ forall f, In f (surface_ids s) -> is_plane (s_prim f) = false.
(** The ray reaches the sheet, or enters or leaves the solid, at [q] *)
Definition meets (s : shape) (r : ray) (q : R) : Prop :=
  if sheet s then inside s (ray_at r q) else crosses (fun t => inside s (ray_at r t)) q.
(** ... and does not before [q] *)
Definition undisturbed (s : shape) (r : ray) (q : R) : Prop :=
  if sheet s then forall t, 0 < t < q -> ~ inside s (ray_at r t) else steady (fun t => inside s (ray_at r t)) 0 q.

(** Components whose boxes are right, and a ray outside numpy's isclose bands (C04) *)
Definition visible (r : ray) (s : shape) : Prop := body s /\ tree_ok s /\ boxes_current s /\ boxes_fit s /\ good_ray s r.
(** The parameters at which the ray passes the surfaces of a component, whether or not they bound the solid there *)
Definition edges (r : ray) (f : surf) : list xr := if is_plane (s_prim f) then firstn 1 (surf_hits f r) else surf_hits f r.
(** Up to [q] the ray passes one surface at a time *)
Definition separate (comps : list shape) (r : ray) (q : R) : Prop :=
  forall t, 0 < t <= q -> (count_occ xr_eq_dec (flat_map (edges r) (flat_map surface_ids comps)) (Fin t) <= 1)%nat.
