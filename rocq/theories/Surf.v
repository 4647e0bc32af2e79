(** * Surf: placed surfaces and CSG trees
    Model of TracerSurface / CSGSurface in /repo/tinygfx/g3d/world_objects.py and
    csg.py, seen at one instant (no mutation): the transforms and bounding boxes
    are the values currently stored in the objects. *)
From Coq Require Import Reals List Bool ZArith.
Import ListNotations.
From Verif Require Import XR Arr Lin Ops Prim Csg.
Open Scope R_scope.

(** Materials: /repo/pyrayt/materials.py:40-145.  A refractor is given by its
    [index_at].  [Untraceable] is a tinygfx material without a trace method (the
    default [BLACK] of world_objects.py:341). *)
Inductive material : Type :=
| Absorber
| Mirror
| Refractor (index_at : R -> xr)
| Untraceable.

(** world_objects.py:338-358 TracerSurface: id, primitive, current world and
    object transforms, [_normal_scale] and material. *)
Record surf : Type := Surf {
  s_id : Z;
  s_prim : prim;
  s_world : mat;
  s_obj : mat;
  s_nscale : R;
  s_mat : material
}.

(** world_objects.py:15-23 [bounding_box]: min and max over the points, per axis *)
Definition list_min (l : list R) : R :=
  match l with [] => 0 | x :: r => fold_left Rmin r x end.
Definition list_max (l : list R) : R :=
  match l with [] => 0 | x :: r => fold_left Rmax r x end.
Definition bounding_box (pts : list v4) : box :=
  cube_box (Fin (list_min (map vx pts)), Fin (list_min (map vy pts)), Fin (list_min (map vz pts)))
           (Fin (list_max (map vx pts)), Fin (list_max (map vy pts)), Fin (list_max (map vz pts))).

(** world_objects.py:352-358 [_boundary_box_update_fn] *)
Definition surf_box (p : prim) (world : mat) : box :=
  bounding_box (map (mapply world) (bounding_points p)).

(** world_objects.py:360-383 [TracerSurface.intersect] on one ray *)
Definition surf_hits (s : surf) (r : ray) : list xr :=
  let '(h0, h1) := sort2 (prim_hits (s_prim s) (ray_map (s_obj s) r)) in [h0; h1].

(** world_objects.py:401-418 [get_world_normals] on one point *)
Definition world_normal (s : surf) (p : v4) : option v4 :=
  match prim_normal (s_prim s) (mapply (s_obj s) p) with
  | None => None
  | Some n =>
      match vnormalize (vset_w (mapply (mtrans (s_obj s)) n) 0) with
      | None => None
      | Some w => Some (vscale (s_nscale s) w)
      end
  end.

(** An Intersectable: a surface, or a CSG node with its stored bounding box. *)
Inductive shape : Type :=
| Leaf (s : surf) (b : box)
| Node (nid : Z) (op : operation) (b : box) (l r : shape).

(** world_objects.py:311-313 [bounding_box] property *)
Definition shape_box (s : shape) : box :=
  match s with Leaf _ b => b | Node _ _ b _ _ => b end.

(** csg.py:99-112 for one axis: the first two rows of the combined spans, sorted
    by the Cube constructor (primitives.py:510). *)
Definition combine_span (asort : list xr -> list nat) (op : operation) (a b : xr * xr) : xr * xr :=
  match array_csg xsle PInf asort [fst a; snd a] [fst b; snd b] op with
  | x :: y :: _ => sort2 (x, y)
  | _ => (PInf, PInf)
  end.

(** csg.py:93-116 [_update_bounding_box] *)
Definition csg_box (asort : list xr -> list nat) (op : operation) (a b : box) : box :=
  match op with
  | DIFFERENCE => a
  | _ => Box (combine_span asort op (spanx a) (spanx b))
             (combine_span asort op (spany a) (spany b))
             (combine_span asort op (spanz a) (spanz b))
  end.

(** Number of rows of the hit matrix: two per leaf *)
Fixpoint shape_rows (s : shape) : nat :=
  match s with
  | Leaf _ _ => 2
  | Node _ _ _ l r => shape_rows l + shape_rows r
  end.

(** csg.py:127-129: does the ray intersect the bounding box? *)
Definition box_hit (b : box) (r : ray) : bool :=
  let '(h0, h1) := cube_hits b r in (xfinite h0 || xfinite h1)%bool.

(** world_objects.py:360-383 and csg.py:118-160 [intersect] on one ray: the
    column of hits and the column of surface ids. *)
Fixpoint shape_intersect (asort : list xr -> list nat) (s : shape) (r : ray) : list xr * list Z :=
  match s with
  | Leaf f _ => (surf_hits f r, [s_id f; s_id f])
  | Node _ op b lc rc =>
      if box_hit b r then
        let '(lh, ls) := shape_intersect asort lc r in
        let '(rh, rs) := shape_intersect asort rc r in
        csg_combine PInf asort op lh ls rh rs
      else (repeat PInf (shape_rows s), repeat (-1)%Z (shape_rows s))
  end.

(** csg.py:170-173 and world_objects.py:325-331 [surface_ids] *)
Fixpoint surface_ids (s : shape) : list surf :=
  match s with
  | Leaf f _ => [f]
  | Node _ _ _ l r => surface_ids l ++ surface_ids r
  end.
