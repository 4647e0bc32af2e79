(** * SpecImages: flat mirrors and the images they make
    Specification only. *)
From Coq Require Import Reals List Bool ZArith.
Import ListNotations.
From Verif Require Import XR Lin Prim Csg Surf World Tracer SpecTrace SpecOptics.
Open Scope R_scope.

(** A plane: the points [q] with n . q = k, for the unit normal [n] *)
Definition facet : Type := (v4 * R)%type.
Definition facet_ok (p : facet) : Prop := unit (fst p) /\ vw (fst p) = 0.
(** The image of a point, and of a direction, behind a plane *)
Definition image_of (q : v4) (p : facet) : v4 := vsub q (vscale (2 * (vdot (fst p) q - snd p)) (fst p)).
Definition turned_by (v : v4) (p : facet) : v4 := vsub v (vscale (2 * vdot (fst p) v) (fst p)).

(** The row ends on a mirror whose surface is [p] there: the end lies in the plane, and the mirror's normal at the end
    is that of the plane, on one side or the other *)
Definition off_mirror (surfaces : list surf) (p : facet) (w : row) : Prop :=
  exists s, In s surfaces /\ s_id s = row_surf w /\ s_mat s = Mirror /\ vdot (fst p) (here (row_end w)) = snd p /\
  (world_normal s (here (row_end w)) = Some (fst p) \/ world_normal s (here (row_end w)) = Some (vopp (fst p))).

(** The length of the way from [q] through the points [qs] *)
Fixpoint walk (q : v4) (qs : list v4) : R :=
  match qs with
  | [] => 0
  | q' :: qs' => vnorm (vsub q' q) + walk q' qs'
  end.
