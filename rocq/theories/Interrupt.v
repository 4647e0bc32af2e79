(** * Interrupt: movements of one object that are broken off
    /repo/tinygfx/g3d/world_objects.py:106-131, 352-358

    A KeyboardInterrupt may arrive between any two assignments of a movement.  The object is
    by itself: a WorldObject, camera, source or TracerSurface that is in no CSG object or
    group (their watchlists are longer and run over several objects). *)
From Coq Require Import Reals List.
Import ListNotations.
From Verif Require Import XR Arr Lin Prim Csg Surf World.
Open Scope R_scope.

(** One assignment to an attribute; [None] if its right-hand side raises *)
Definition assignment : Type := obj -> option obj.
(** world_objects.py:127-129 *)
Definition set_world (t : mat) : assignment := fun o => Some (with_world (mmul t (o_world o)) o).
(** world_objects.py:109-111 *)
Definition set_origin : assignment := fun o => Some (with_origin (mapply (o_world o) obj_origin) o).
(** world_objects.py:112-119 *)
Definition set_direction : assignment := fun o =>
  let d := mapply (o_world o) obj_direction in
  if rltb (vnorm d) dir_tolerance then None else Some (with_dir (vscale (/ vnorm d) d) o).
(** world_objects.py:122-124 *)
Definition set_inverse : assignment := fun o =>
  match minv (o_world o) with None => None | Some i => Some (with_obj i o) end.
(** world_objects.py:352-358 *)
Definition set_box (p : prim) : assignment := fun o => Some (with_box (surf_box p (o_world o)) o).
(** world_objects.py:126-131 with the watchlists of 104 and 350: the assignments of a
    movement by [t], in order *)
Definition assignments (k : kind) (t : mat) : list assignment :=
  ([set_world t; set_origin; set_direction; set_inverse] ++
   match k with KSurf p _ => [set_box p] | _ => [] end)%list.
(** Whether all of them took effect, and the object left *)
Fixpoint assign (l : list assignment) (o : obj) : bool * obj :=
  match l with
  | [] => (true, o)
  | a :: l => match a o with None => (false, o) | Some o => assign l o end
  end.
(** A movement that is let finish: whether it returns, and the object left *)
Definition movement (t : mat) (o : obj) : bool * obj := assign (assignments (o_kind o) t) o.
(** A movement interrupted after [k] assignments, if it has not raised before *)
Definition cut_movement (t : mat) (k : nat) (o : obj) : obj := snd (assign (firstn k (assignments (o_kind o) t)) o).
(** Movements one after the other, each cut after the given number of assignments; a number
    of 5 or more: not cut *)
Definition cut_movements (history : list (mat * nat)) (o : obj) : obj :=
  fold_left (fun o m => cut_movement (fst m) (snd m) o) history o.
(** _pyrayt.py:571-575 [pin.__exit__] for one object; [None]: [np.linalg.inv] raises *)
Definition pin_back (start : mat) (o : obj) : option (bool * obj) :=
  match minv start with
  | None => None
  | Some si => match minv (mmul (o_world o) si) with None => None | Some t => Some (movement t o) end
  end.
