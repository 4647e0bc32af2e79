(** * SpecBall: balls of glass
    Specification only. *)
From Coq Require Import Reals List ZArith.
From Verif Require Import XR Lin Prim Surf SpecComponents SpecMotion.
Open Scope R_scope.

(** The surface is a sphere of radius [r], moved and rotated in any way, with its centre at [c]; its normals point
    outwards *)
Definition ball (f : surf) (c : v4) (r : R) : Prop :=
  0 < r /\ s_prim f = PSphere r /\ isometry (s_world f) /\ mapply (s_world f) (pt 0 0 0) = c /\ s_nscale f = 1.
(** The direction [v] turned over the direction [e]: what lies along [e] stays, what lies across is reversed *)
Definition turned_over (e v : v4) : v4 := vsub (vscale (2 * vdot v e) e) v.
