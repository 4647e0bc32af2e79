(** * CutWalk: movements of composites, cut between two objects
    /repo/tinygfx/g3d/csg.py:175-179, world_objects.py:293-295

    [transform] moves an object and then its parts, one after the other (World.v).  An
    interrupt between two of them leaves the first [n] of the walk moved. *)
From Coq Require Import List.
From Verif Require Import XR Lin World SpecWorld.

(** The movements of these objects, one after the other (world_objects.py:126-131 each) *)
Definition move_each (asort : list xr -> list nat) (t : mat) (ps : list loc) (h : heap) : res :=
  each (fun p => append_own asort p t) ps h.
(** csg.py:175-179, world_objects.py:293-295, interrupted after [n] objects have moved *)
Definition cut_transform (asort : list xr -> list nat) (n : nat) (l : loc) (t : mat) (h : heap) : res :=
  move_each asort t (firstn n (parts h l)) h.
