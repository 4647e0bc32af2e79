(** * SpecSheet: a plate with holes and an outline
    Specification only. *)
From Coq Require Import Reals List.
Import ListNotations.
From Verif Require Import XR Lin Prim Csg Surf SpecGeom SpecTree.
Open Scope R_scope.

(** [s] is what is left of the surface [f] after the solids [drilled] were subtracted from it and
    the solids [trims] intersected with it, in any order. *)
Inductive cut_from (f : surf) : list shape -> list shape -> shape -> Prop :=
| whole : forall b, cut_from f [] [] (Leaf f b)
| drill : forall drilled trims s h i b, cut_from f drilled trims s -> cut_from f (h :: drilled) trims (Node i DIFFERENCE b s h)
| trim : forall drilled trims s h i b, cut_from f drilled trims s -> cut_from f drilled (h :: trims) (Node i INTERSECT b s h).
(** [P] holds on the last stretch of the ray before its parameter reaches [q]. *)
Definition just_before (P : R -> Prop) (q : R) : Prop := exists e, 0 < e /\ forall u, q - e <= u < q -> P u.
(** After [q] of its direction vectors the ray is on the plate [f] of width [w] and length [l],
    off its rim. *)
Definition on_plate (f : surf) (w l : R) (r : ray) (q : R) : Prop :=
  exists x y, Rabs x < w / 2 /\ Rabs y < l / 2 /\ ray_at r q = mapply (s_world f) (V4 x y 0 1).
