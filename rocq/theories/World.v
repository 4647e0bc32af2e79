(** * World: mutable world objects
    Model of /repo/tinygfx/g3d/world_objects.py and of the mutable part of csg.py.

    Objects live in a heap; an object is named by its position in the heap (the
    identity of the Python object).  Python exceptions are values that carry the heap
    at the moment of the raise.  A watchlist entry is a bound method; it is modelled as
    a token naming the method and its object.
    SIMPLIFICATION: the flags _dir_valid, _pos_valid, _obj_transform_valid are never
    set to False by any code, so the branches that test them are left out. *)
From Coq Require Import Reals List Bool ZArith.
Import ListNotations.
From Verif Require Import XR Arr Lin Prim Csg Surf.
Open Scope R_scope.

Definition loc := nat.

(** The bound methods that appear in a var_watchlist (world_objects.py:104, 350,
    csg.py:77). *)
Inductive handler : Type :=
| HMat (l : loc)       (* l._world_matrix_update_handler *)
| HLeafBox (l : loc)   (* l._boundary_box_update_fn *)
| HCsgBox (l : loc).   (* l._update_bounding_box *)

(** What an object is.  [KPlain]: WorldObject, OrthographicCamera or a source. *)
Inductive kind : Type :=
| KPlain
| KSurf (p : prim) (m : material)
| KCsg (op : operation) (l r : loc)
| KGroup (members : list loc).

(** The attributes of a world object (world_objects.py:79-104, 303-305, 341-350).
    [o_box] and [o_nscale] only matter for intersectables. *)
Record obj : Type := Obj {
  o_id : nat;
  o_kind : kind;
  o_world : mat;
  o_obj : mat;
  o_origin : v4;
  o_dir : v4;
  o_watch : list handler;
  o_box : box;
  o_nscale : R
}.

(** [h_next] is the shared counter CountedObject._ids (world_objects.py:27). *)
Record heap : Type := Heap { h_next : nat; h_objs : list obj }.

Inductive exn : Type := ValueError | LinAlgError | AttributeError.

(** The outcome of a method call: done, raised, or recursion without end
    (RecursionError in Python). *)
Inductive res : Type :=
| Ok (h : heap)
| Raise (e : exn) (h : heap)
| Diverge.

Definition bind (r : res) (k : heap -> res) : res :=
  match r with Ok h => k h | Raise e h => Raise e h | Diverge => Diverge end.

(** ** Reading and writing attributes *)
Definition get (h : heap) (l : loc) : option obj := nth_error (h_objs h) l.

Fixpoint list_upd {A : Type} (l : list A) (i : nat) (f : A -> A) : list A :=
  match l, i with
  | [], _ => []
  | x :: r, O => f x :: r
  | x :: r, S i => x :: list_upd r i f
  end.
Definition upd (h : heap) (l : loc) (f : obj -> obj) : heap :=
  Heap (h_next h) (list_upd (h_objs h) l f).

Definition with_world (m : mat) (o : obj) : obj :=
  Obj (o_id o) (o_kind o) m (o_obj o) (o_origin o) (o_dir o) (o_watch o) (o_box o) (o_nscale o).
Definition with_obj (m : mat) (o : obj) : obj :=
  Obj (o_id o) (o_kind o) (o_world o) m (o_origin o) (o_dir o) (o_watch o) (o_box o) (o_nscale o).
Definition with_origin (v : v4) (o : obj) : obj :=
  Obj (o_id o) (o_kind o) (o_world o) (o_obj o) v (o_dir o) (o_watch o) (o_box o) (o_nscale o).
Definition with_dir (v : v4) (o : obj) : obj :=
  Obj (o_id o) (o_kind o) (o_world o) (o_obj o) (o_origin o) v (o_watch o) (o_box o) (o_nscale o).
Definition with_watch (w : list handler) (o : obj) : obj :=
  Obj (o_id o) (o_kind o) (o_world o) (o_obj o) (o_origin o) (o_dir o) w (o_box o) (o_nscale o).
Definition with_box (b : box) (o : obj) : obj :=
  Obj (o_id o) (o_kind o) (o_world o) (o_obj o) (o_origin o) (o_dir o) (o_watch o) b (o_nscale o).
Definition with_nscale (k : R) (o : obj) : obj :=
  Obj (o_id o) (o_kind o) (o_world o) (o_obj o) (o_origin o) (o_dir o) (o_watch o) (o_box o) k.
Definition with_members (m : list loc) (o : obj) : obj :=
  Obj (o_id o) (KGroup m) (o_world o) (o_obj o) (o_origin o) (o_dir o) (o_watch o) (o_box o) (o_nscale o).

(** ** Handlers *)
Definition obj_origin : v4 := point 0 0 0.     (* world_objects.py:81 *)
Definition obj_direction : v4 := vector 0 0 1. (* world_objects.py:82 *)
Definition dir_tolerance : R := / 10000000.    (* world_objects.py:114 *)

Section Sorting.
  Variable asort : list xr -> list nat. (* np.argsort, used for the boxes *)

  (** The box stored in an intersectable (world_objects.py:311-313); an object that
      has none makes the reading of [_aobb] fail. *)
  Definition box_of (h : heap) (l : loc) : option box :=
    match get h l with
    | Some o => match o_kind o with KSurf _ _ | KCsg _ _ _ => Some (o_box o) | _ => None end
    | None => None
    end.

  (** world_objects.py:106-124 [_world_matrix_update_handler],
      352-358 [_boundary_box_update_fn], csg.py:93-116 [_update_bounding_box] *)
  Definition run_handler (w : handler) (h : heap) : res :=
    match w with
    | HMat l =>
        match get h l with
        | None => Raise AttributeError h
        | Some o =>
            let h1 := upd h l (with_origin (mapply (o_world o) obj_origin)) in
            let d := mapply (o_world o) obj_direction in
            if rltb (vnorm d) dir_tolerance then Raise ValueError h1
            else
              let h2 := upd h1 l (with_dir (vscale (/ vnorm d) d)) in
              match minv (o_world o) with
              | None => Raise LinAlgError h2
              | Some i => Ok (upd h2 l (with_obj i))
              end
        end
    | HLeafBox l =>
        match get h l with
        | Some o =>
            match o_kind o with
            | KSurf p _ => Ok (upd h l (with_box (surf_box p (o_world o))))
            | _ => Raise AttributeError h
            end
        | None => Raise AttributeError h
        end
    | HCsgBox l =>
        match get h l with
        | Some o =>
            match o_kind o with
            | KCsg op lc rc =>
                match box_of h lc, box_of h rc with
                | Some a, Some b => Ok (upd h l (with_box (csg_box asort op a b)))
                | _, _ => Raise AttributeError h
                end
            | _ => Raise AttributeError h
            end
        | None => Raise AttributeError h
        end
    end.

  (** world_objects.py:131 [[fn() for fn in self.var_watchlist]] *)
  Fixpoint run_all (ws : list handler) (h : heap) : res :=
    match ws with
    | [] => Ok h
    | w :: r => bind (run_handler w h) (run_all r)
    end.

  (** world_objects.py:126-131 [WorldObject._append_world_transform] *)
  Definition append_own (l : loc) (t : mat) (h : heap) : res :=
    match get h l with
    | None => Raise AttributeError h
    | Some o => run_all (o_watch o) (upd h l (with_world (mmul t (o_world o))))
    end.

  (** The objects a transform is passed on to: csg.py:175-179, world_objects.py:293-295 *)
  Definition children (k : kind) : list loc :=
    match k with
    | KCsg _ lc rc => [lc; rc]
    | KGroup ms => ms
    | _ => []
    end.

  (** world_objects.py:271-280 [transform] = [_append_world_transform] of the class:
      WorldObject (126-131), ObjectGroup (288-295), CSGSurface (csg.py:175-179).
      Sequencing over the children, each with the given recursive call. *)
  Fixpoint each (f : loc -> heap -> res) (ls : list loc) (h : heap) : res :=
    match ls with
    | [] => Ok h
    | l :: r => bind (f l h) (each f r)
    end.
  Fixpoint transform (fuel : nat) (l : loc) (t : mat) (h : heap) : res :=
    match fuel with
    | O => Diverge
    | S n =>
        match get h l with
        | None => Raise AttributeError h
        | Some o =>
            bind (append_own l t h) (each (fun c => transform n c t) (children (o_kind o)))
        end
    end.

  (** ** Construction *)
  (** world_objects.py:29-31 and 79-104: a new object with the next id and identity
      transforms; [HMat] of itself is the first watchlist entry.  The box attribute
      does not exist yet; the empty box stands for it and is overwritten before the
      constructor returns. *)
  Definition empty_box : box := Box (PInf, PInf) (PInf, PInf) (PInf, PInf).
  Definition fresh (h : heap) : loc := length (h_objs h).
  Definition alloc (k : kind) (h : heap) : heap :=
    Heap (S (h_next h))
      (h_objs h ++ [Obj (h_next h) k mid mid (point 0 0 0) (vector 0 0 1)
                        [HMat (length (h_objs h))] empty_box 1]).

  (** WorldObject(), OrthographicCamera(...), the sources *)
  Definition new_plain (h : heap) : res := Ok (alloc KPlain h).

  (** world_objects.py:284-286 [ObjectGroup(members)].
      SIMPLIFICATION: the members are existing world objects. *)
  Definition valid_locs (h : heap) (ms : list loc) : bool :=
    forallb (fun x => Nat.ltb x (length (h_objs h))) ms.
  Definition new_group (ms : list loc) (h : heap) : res :=
    if valid_locs h ms then Ok (alloc (KGroup ms) h) else Raise AttributeError h.

  (** Any mutation of the list of members that collections.UserList offers (append,
      insert, remove, pop, item assignment, ...): the list afterwards is [ms]. *)
  Definition group_set (g : loc) (ms : list loc) (h : heap) : res :=
    match get h g with
    | Some o =>
        match o_kind o with
        | KGroup _ => if valid_locs h ms then Ok (upd h g (with_members ms)) else Raise AttributeError h
        | _ => Raise AttributeError h
        end
    | None => Raise AttributeError h
    end.

  (** world_objects.py:341-350 [TracerSurface.__init__].  The counter has moved on when
      the primitive's constructor raises. *)
  Definition new_surface (p : prim) (m : material) (h : heap) : res :=
    let l := fresh h in
    let h1 := alloc (KSurf p m) h in
    match prim_init p with
    | None => Raise ValueError (Heap (S (h_next h)) (h_objs h))
    | Some _ =>
        let h2 := upd h1 l (with_box (bounding_box (bounding_points p))) in
        Ok (upd h2 l (fun o => with_watch (o_watch o ++ [HLeafBox l]) o))
    end.

  (** world_objects.py:315-317 [attach_to] *)
  Definition attach_to (child parent : loc) (h : heap) : res :=
    match get h child, get h parent with
    | Some c, Some p =>
        match o_kind c with
        | KSurf _ _ | KCsg _ _ _ =>
            Ok (upd h child (with_watch (o_watch c ++ o_watch p)))
        | _ => Raise AttributeError h
        end
    | _, _ => Raise AttributeError h
    end.

  (** world_objects.py:319-323 and csg.py:162-168 [invert_normals] (k = -1) and
      [reset_normals] (k = 1) *)
  Fixpoint set_normals (fuel : nat) (k : R) (l : loc) (h : heap) : res :=
    match fuel with
    | O => Diverge
    | S n =>
        match get h l with
        | Some o =>
            match o_kind o with
            | KSurf _ _ => Ok (upd h l (with_nscale k))
            | KCsg _ lc rc => bind (set_normals n k lc h) (set_normals n k rc)
            | _ => Raise AttributeError h
            end
        | None => Raise AttributeError h
        end
    end.

  (** The recursions above descend into children.  More levels than there are objects
      means that a group contains itself: Python's RecursionError.
      SIMPLIFICATION: Python's recursion limit for deep but finite nesting is ignored. *)
  Definition depth (h : heap) : nat := S (length (h_objs h)).

  (** csg.py:65-91 [CSGSurface.__init__]; the operands are existing objects. *)
  Definition new_csg (op : operation) (lc rc : loc) (h : heap) : res :=
    if negb (valid_locs h [lc; rc]) then Raise AttributeError h else
    let l := fresh h in
    let h1 := alloc (KCsg op lc rc) h in
    let h2 := upd h1 l (fun o => with_watch (o_watch o ++ [HCsgBox l]) o) in
    bind (attach_to lc l h2) (fun h3 =>
    bind (attach_to rc l h3) (fun h4 =>
    bind (match op with DIFFERENCE => set_normals (depth h4) (-1) rc h4 | _ => Ok h4 end) (fun h5 =>
    run_handler (HCsgBox l) h5))).

  (** ** Movement operations *)
  (** world_objects.py:58-78 [_sin_cos]; [None] is the ValueError for another unit *)
  Inductive units : Type := Deg | Rad | OtherUnit.
  Definition sin_cos (angle : R) (u : units) : option (R * R) :=
    match u with
    | Deg => Some (sin (angle * PI / 180), cos (angle * PI / 180))
    | Rad => Some (sin angle, cos angle)
    | OtherUnit => None
    end.

  (** The public movement operations (world_objects.py:196-280).  move_x, scale_all and
      so on are calls of these with default arguments, see [op_move_x] etc. below. *)
  Inductive motion : Type :=
  | Move (x y z : R)
  | Scale (x y z : R)
  | RotX (angle : R) (u : units)
  | RotY (angle : R) (u : units)
  | RotZ (angle : R) (u : units)
  | Transform (m : mat).

  (** world_objects.py:203-213 and 225-235: the shorthands *)
  Definition op_move_x (d : R) : motion := Move d 0 0.
  Definition op_move_y (d : R) : motion := Move 0 d 0.
  Definition op_move_z (d : R) : motion := Move 0 0 d.
  Definition op_scale_x (k : R) : motion := Scale k 1 1.
  Definition op_scale_y (k : R) : motion := Scale 1 k 1.
  Definition op_scale_z (k : R) : motion := Scale 1 1 k.
  Definition op_scale_all (k : R) : motion := Scale k k k.

  (** The matrix each operation builds, or the ValueError it raises first. *)
  Definition motion_matrix (o : motion) : option mat :=
    match o with
    | Move x y z =>                                          (* 196-201 *)
        Some (M4 (V4 1 0 0 x) (V4 0 1 0 y) (V4 0 0 1 z) (V4 0 0 0 1))
    | Scale x y z =>                                         (* 216-223 *)
        if (rltb x 0 || rltb y 0 || rltb z 0)%bool then None
        else Some (M4 (V4 x 0 0 0) (V4 0 y 0 0) (V4 0 0 z 0) (V4 0 0 0 1))
    | RotX a u =>                                            (* 238-247 *)
        match sin_cos a u with
        | None => None
        | Some (s, c) => Some (M4 (V4 1 0 0 0) (V4 0 c (- s) 0) (V4 0 s c 0) (V4 0 0 0 1))
        end
    | RotY a u =>                                            (* 249-258 *)
        match sin_cos a u with
        | None => None
        | Some (s, c) => Some (M4 (V4 c 0 s 0) (V4 0 1 0 0) (V4 (- s) 0 c 0) (V4 0 0 0 1))
        end
    | RotZ a u =>                                            (* 260-269 *)
        match sin_cos a u with
        | None => None
        | Some (s, c) => Some (M4 (V4 c (- s) 0 0) (V4 s c 0 0) (V4 0 0 1 0) (V4 0 0 0 1))
        end
    | Transform m => Some m                                  (* 271-280 *)
    end.

  Definition apply_motion (l : loc) (o : motion) (h : heap) : res :=
    match motion_matrix o with
    | None => Raise ValueError h
    | Some t => transform (depth h) l t h
    end.

  (** ** Programs: any sequence of the calls above *)
  Inductive call : Type :=
  | CPlain
  | CSurface (p : prim) (m : material)
  | CGroup (ms : list loc)
  | CSetMembers (g : loc) (ms : list loc)
  | CCsg (op : operation) (l r : loc)
  | CMotion (l : loc) (o : motion)
  | CInvert (l : loc)
  | CReset (l : loc).

  Definition run_call (c : call) (h : heap) : res :=
    match c with
    | CPlain => new_plain h
    | CSurface p m => new_surface p m h
    | CGroup ms => new_group ms h
    | CSetMembers g ms => group_set g ms h
    | CCsg op l r => new_csg op l r h
    | CMotion l o => apply_motion l o h
    | CInvert l => set_normals (depth h) (-1) l h
    | CReset l => set_normals (depth h) 1 l h
    end.

  (** A program in which every call succeeds, or stops at the first that raises. *)
  Fixpoint run_prog (cs : list call) (h : heap) : res :=
    match cs with
    | [] => Ok h
    | c :: r => bind (run_call c h) (run_prog r)
    end.

  (** A program that catches every exception and carries on with the heap as the
      failed call left it. *)
  Fixpoint run_catching (cs : list call) (h : heap) : option heap :=
    match cs with
    | [] => Some h
    | c :: r =>
        match run_call c h with
        | Ok h' | Raise _ h' => run_catching r h'
        | Diverge => None
        end
    end.
End Sorting.

(** The heap at program start *)
Definition empty_heap : heap := Heap 0 [].

(** ** Reading an object back *)
(** world_objects.py:133-140 get_position, 142-154 get_orientation,
    162-169 get_world_transform, 180-187 get_object_transform,
    189-193 to_object_coordinates / to_world_coordinates *)
Definition get_position (o : obj) : v4 := o_origin o.
Definition get_orientation (o : obj) : v4 := o_dir o.
Definition get_world_transform (o : obj) : mat := o_world o.
Definition get_object_transform (o : obj) : mat := o_obj o.
Definition to_object_coordinates (o : obj) (v : v4) : v4 := mapply (o_obj o) v.
Definition to_world_coordinates (o : obj) (v : v4) : v4 := mapply (o_world o) v.

(** The object at [l] as a value: the tree [Surf.shape] reads at this instant. *)
Fixpoint shape_fuel (fuel : nat) (h : heap) (l : loc) : option shape :=
  match fuel with
  | O => None
  | S n =>
      match get h l with
      | Some o =>
          match o_kind o with
          | KSurf p m =>
              Some (Leaf (Surf (Z.of_nat (o_id o)) p (o_world o) (o_obj o) (o_nscale o) m) (o_box o))
          | KCsg op lc rc =>
              match shape_fuel n h lc, shape_fuel n h rc with
              | Some a, Some b => Some (Node (Z.of_nat (o_id o)) op (o_box o) a b)
              | _, _ => None
              end
          | _ => None
          end
      | None => None
      end
  end.

Definition shape_of (h : heap) (l : loc) : option shape := shape_fuel (depth h) h l.

(** ** pin (/repo/pyrayt/_pyrayt.py:539-575) *)
(** _pyrayt.py:565-569 [__enter__] *)
Definition pin_enter (h : heap) (ls : list loc) : list (option mat) :=
  map (fun l => option_map o_world (get h l)) ls.
(** _pyrayt.py:571-575 [__exit__] *)
Fixpoint pin_exit (asort : list xr -> list nat) (ls : list loc)
    (starts : list (option mat)) (h : heap) : res :=
  match ls, starts with
  | l :: ls', Some start :: starts' =>
      match get h l with
      | None => Raise AttributeError h
      | Some o =>
          match minv start with
          | None => Raise LinAlgError h
          | Some si =>
              match minv (mmul (o_world o) si) with
              | None => Raise LinAlgError h
              | Some t => bind (transform asort (depth h) l t h) (pin_exit asort ls' starts')
              end
          end
      end
  | _, _ => Ok h
  end.
