(** * SpecBlock: blocks of glass
    Specification only. *)
From Coq Require Import Reals List ZArith.
From Verif Require Import XR Lin Prim Surf SpecComponents SpecEdges SpecMotion Tracer SpecTrace.
Open Scope R_scope.

Inductive axis := AlongX | AlongY | AlongZ.
Definition coord (a : axis) (v : v4) : R := match a with AlongX => vx v | AlongY => vy v | AlongZ => vz v end.
Definition arrow (a : axis) : v4 := match a with AlongX => V4 1 0 0 0 | AlongY => V4 0 1 0 0 | AlongZ => V4 0 0 1 0 end.

(** The surface is a cuboid, moved and rotated in any way; on its own axes it reaches from [low] to [high].  Its normals
    point outwards *)
Definition block (f : surf) (low high : axis -> R) : Prop :=
  (forall a, low a < high a /\ ~ near (low a) (high a)) /\
  s_prim f = PCube (low AlongX, low AlongY, low AlongZ) (high AlongX, high AlongY, high AlongZ) /\
  isometry (s_world f) /\ s_nscale f = 1.
(** Where a leg ends, on the axes of the block, and what its direction has along them *)
Definition place (f : surf) (a : axis) (w : row) : R := coord a (mapply (s_obj f) (here (row_end w))).
Definition part (f : surf) (a : axis) (w : row) : R := vdot (row_tilt w) (mapply (s_world f) (arrow a)).

(** The leg ends on one of the two faces across the axis [a], away from the edges *)
Definition ends_on_pair (f : surf) (low high : axis -> R) (a : axis) (w : row) : Prop :=
  row_surf w = s_id f /\ (place f a w = low a \/ place f a w = high a) /\
  forall b, b <> a -> ~ near (place f b w) (low b) /\ ~ near (place f b w) (high b).
(** ... going into the block, or out of it *)
Definition enters (f : surf) (low high : axis -> R) (a : axis) (w : row) : Prop :=
  ends_on_pair f low high a w /\ (place f a w = low a /\ 0 < part f a w \/ place f a w = high a /\ part f a w < 0).
Definition leaves (f : surf) (low high : axis -> R) (a : axis) (w : row) : Prop :=
  ends_on_pair f low high a w /\ (place f a w = low a /\ part f a w < 0 \/ place f a w = high a /\ 0 < part f a w).
