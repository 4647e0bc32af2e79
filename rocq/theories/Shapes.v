(** * Shapes: the calls that make surfaces and the readers of their primitives
    /repo/tinygfx/g3d/world_objects.py:419-496, csg.py:182-191, primitives.py:230-239, 317-318, 639-648 *)
From Coq Require Import Reals List Bool.
Import ListNotations.
From Verif Require Import XR Lin Csg Prim Surf World.
Open Scope R_scope.

(** An argument that was left out has its default value. *)
Definition default {A : Type} (a : option A) (d : A) : A := match a with Some x => x | None => d end.

(** The calls; [material] and further keyword arguments are left out.  Of the two classes named [Cylinder]
    (world_objects.py:432-443 and 485-496) the second, which replaces the first when the module is read. *)
Inductive shape_call : Type :=
| MkSphere (radius : R)                                       (* world_objects.py:425-429 *)
| MkCylinder (radius min_height max_height : option R)        (* world_objects.py:485-496 *)
| MkParaboloid (focus height : option R)                      (* world_objects.py:446-452 *)
| MkXYPlane (width length : option R)                         (* world_objects.py:455-461 *)
| MkCuboid (l_corner r_corner : option (R * R * R))           (* world_objects.py:464-472 *)
| MkFromSides (x y z : option R)                              (* world_objects.py:474-477 *)
| MkFromLength (length : R).                                  (* world_objects.py:479-482 *)

(** world_objects.py:341-350: [type(self).surface( *surface_args)] with the primitives' constructors; [None] is the ValueError of
    primitives.py:306-307.  The corners of from_sides and from_length are [-0.5 * side] and [0.5 * side]. *)
Definition shape_primitive (c : shape_call) : option prim :=
  match c with
  | MkSphere radius => prim_init (PSphere radius)
  | MkCylinder radius lo hi => prim_init (PCylinder (default radius 1) (default lo (-1)) (default hi 1) true)
  | MkParaboloid focus height => prim_init (PParaboloid (default focus 1) (default height 1))
  | MkXYPlane width length => prim_init (PPlane (default width 2) (default length 2))
  | MkCuboid l r => prim_init (PCube (default l (-1, -1, -1)) (default r (1, 1, 1)))
  | MkFromSides x y z =>
      let x := default x 1 in let y := default y 1 in let z := default z 1 in
      prim_init (PCube (- (1 / 2) * x, - (1 / 2) * y, - (1 / 2) * z) (1 / 2 * x, 1 / 2 * y, 1 / 2 * z))
  | MkFromLength a =>
      prim_init (PCube (a * - (1 / 2), a * - (1 / 2), a * - (1 / 2)) (a * (1 / 2), a * (1 / 2), a * (1 / 2)))
  end.

(** primitives.py:230-239 and 639-648 [get_radius]; [None]: the class has no such method (AttributeError) *)
Definition get_radius (p : prim) : option R :=
  match p with PSphere r => Some r | PCylinder r _ _ _ => Some r | _ => None end.
(** primitives.py:317-318 [get_focus] *)
Definition get_focus (p : prim) : option R := match p with PParaboloid f _ => Some f | _ => None end.
(** world_objects.py:420-422 [TracerSurface.primitive]; only surfaces have it *)
Definition primitive (o : obj) : option prim := match o_kind o with KSurf p _ => Some p | _ => None end.

(** csg.py:182-191 *)
Definition csg_union (s0 s1 : loc) : call := CCsg UNION s0 s1.
Definition csg_intersect (s0 s1 : loc) : call := CCsg INTERSECT s0 s1.
Definition csg_difference (s0 s1 : loc) : call := CCsg DIFFERENCE s0 s1.
