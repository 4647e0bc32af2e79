(** * Refs: the arrays of world objects, and who holds them
    Model of /repo/tinygfx/g3d/world_objects.py and of the mutable part of csg.py once more, like World.v,
    but with numpy arrays as objects in a memory: an attribute holds the address of an array, a getter hands
    out an address, and the caller may write into every array whose address they have.
    SIMPLIFICATION: boxes are values here, as in World.v; the caller could each_part the arrays of a box too, through
    [bounding_box.axis_spans]. *)
From Coq Require Import Reals List Bool ZArith.
Import ListNotations.
From Verif Require Import XR Arr Lin Prim Csg Surf World.
Open Scope R_scope.

(** A 4x4 array or a homogeneous coordinate *)
Inductive array : Type := AMat (m : mat) | AVec (v : v4).
Definition addr := nat.

(** world_objects.py:79-104, 303-305, 341-350: as [World.obj], with addresses.  [r_obj_origin] and [r_obj_dir]
    are the attributes _obj_origin and _obj_direction. *)
Record robj : Type := RObj {
  r_id : nat;
  r_kind : kind;
  r_world : addr;
  r_obj : addr;
  r_obj_origin : addr;
  r_obj_dir : addr;
  r_origin : addr;
  r_dir : addr;
  r_watch : list handler;
  r_box : box;
  r_nscale : R
}.
(** The counter, the memory (an address is a position), the objects *)
Record rheap : Type := RHeap { rh_next : nat; rh_mem : list array; rh_objs : list robj }.
Inductive rres : Type := ROk (h : rheap) | RRaise (e : exn) (h : rheap) | RDiverge.
Definition rbind (r : rres) (k : rheap -> rres) : rres :=
  match r with ROk h => k h | RRaise e h => RRaise e h | RDiverge => RDiverge end.

(** Reading an array *)
Definition rget (h : rheap) (l : loc) : option robj := nth_error (rh_objs h) l.
Definition mat_in (h : rheap) (a : addr) : option mat :=
  match nth_error (rh_mem h) a with Some (AMat m) => Some m | _ => None end.
Definition vec_in (h : rheap) (a : addr) : option v4 :=
  match nth_error (rh_mem h) a with Some (AVec v) => Some v | _ => None end.
(** A new array; its address is the length of the memory before *)
Definition new_arr (x : array) (h : rheap) : rheap := RHeap (rh_next h) (rh_mem h ++ [x]) (rh_objs h).
(** Binding an attribute *)
Definition rupd (h : rheap) (l : loc) (f : robj -> robj) : rheap := RHeap (rh_next h) (rh_mem h) (list_upd (rh_objs h) l f).
Definition bind_world (a : addr) (o : robj) : robj :=
  RObj (r_id o) (r_kind o) a (r_obj o) (r_obj_origin o) (r_obj_dir o) (r_origin o) (r_dir o) (r_watch o) (r_box o) (r_nscale o).
Definition bind_obj (a : addr) (o : robj) : robj :=
  RObj (r_id o) (r_kind o) (r_world o) a (r_obj_origin o) (r_obj_dir o) (r_origin o) (r_dir o) (r_watch o) (r_box o) (r_nscale o).
Definition bind_origin (a : addr) (o : robj) : robj :=
  RObj (r_id o) (r_kind o) (r_world o) (r_obj o) (r_obj_origin o) (r_obj_dir o) a (r_dir o) (r_watch o) (r_box o) (r_nscale o).
Definition bind_dir (a : addr) (o : robj) : robj :=
  RObj (r_id o) (r_kind o) (r_world o) (r_obj o) (r_obj_origin o) (r_obj_dir o) (r_origin o) a (r_watch o) (r_box o) (r_nscale o).
Definition bind_watch (w : list handler) (o : robj) : robj :=
  RObj (r_id o) (r_kind o) (r_world o) (r_obj o) (r_obj_origin o) (r_obj_dir o) (r_origin o) (r_dir o) w (r_box o) (r_nscale o).
Definition bind_box (b : box) (o : robj) : robj :=
  RObj (r_id o) (r_kind o) (r_world o) (r_obj o) (r_obj_origin o) (r_obj_dir o) (r_origin o) (r_dir o) (r_watch o) b (r_nscale o).
Definition bind_nscale (k : R) (o : robj) : robj :=
  RObj (r_id o) (r_kind o) (r_world o) (r_obj o) (r_obj_origin o) (r_obj_dir o) (r_origin o) (r_dir o) (r_watch o) (r_box o) k.
Definition bind_members (ms : list loc) (o : robj) : robj :=
  RObj (r_id o) (KGroup ms) (r_world o) (r_obj o) (r_obj_origin o) (r_obj_dir o) (r_origin o) (r_dir o) (r_watch o) (r_box o) (r_nscale o).

Section Sorting.
  Variable asort : list xr -> list nat. (* np.argsort, used for the boxes *)

  (** world_objects.py:311-313 *)
  Definition rbox_of (h : rheap) (l : loc) : option box :=
    match rget h l with
    | Some o => match r_kind o with KSurf _ _ | KCsg _ _ _ => Some (r_box o) | _ => None end
    | None => None
    end.

  (** world_objects.py:106-124 [_world_matrix_update_handler]: the products, the quotient and the inverse are new
      arrays; 352-358 [_boundary_box_update_fn]; csg.py:93-116 [_update_bounding_box] *)
  Definition rrun_handler (w : handler) (h : rheap) : rres :=
    match w with
    | HMat l =>
        match rget h l with
        | None => RRaise AttributeError h
        | Some o =>
            match mat_in h (r_world o), vec_in h (r_obj_origin o), vec_in h (r_obj_dir o) with
            | Some m, Some p, Some q =>
                let a := length (rh_mem h) in
                let h1 := rupd (new_arr (AVec (mapply m p)) h) l (bind_origin a) in
                let d := mapply m q in
                if rltb (vnorm d) dir_tolerance then RRaise ValueError h1
                else
                  let h2 := rupd (new_arr (AVec (vscale (/ vnorm d) d)) h1) l (bind_dir (S a)) in
                  match minv m with
                  | None => RRaise LinAlgError h2
                  | Some i => ROk (rupd (new_arr (AMat i) h2) l (bind_obj (S (S a))))
                  end
            | _, _, _ => RDiverge
            end
        end
    | HLeafBox l =>
        match rget h l with
        | Some o =>
            match r_kind o, mat_in h (r_world o) with
            | KSurf p _, Some m => ROk (rupd h l (bind_box (surf_box p m)))
            | KSurf _ _, None => RDiverge
            | _, _ => RRaise AttributeError h
            end
        | None => RRaise AttributeError h
        end
    | HCsgBox l =>
        match rget h l with
        | Some o =>
            match r_kind o with
            | KCsg op lc rc =>
                match rbox_of h lc, rbox_of h rc with
                | Some a, Some b => ROk (rupd h l (bind_box (csg_box asort op a b)))
                | _, _ => RRaise AttributeError h
                end
            | _ => RRaise AttributeError h
            end
        | None => RRaise AttributeError h
        end
    end.
  Fixpoint rrun_all (ws : list handler) (h : rheap) : rres :=
    match ws with
    | [] => ROk h
    | w :: r => rbind (rrun_handler w h) (rrun_all r)
    end.

  (** world_objects.py:126-131 [_append_world_transform]; [t] is the address of the argument, which is read
      here.  ([RDiverge] stands for an argument that is not a 4x4 array: not modelled.) *)
  Definition rappend_own (l : loc) (t : addr) (h : rheap) : rres :=
    match rget h l with
    | None => RRaise AttributeError h
    | Some o =>
        match mat_in h t, mat_in h (r_world o) with
        | Some m, Some w => rrun_all (r_watch o) (rupd (new_arr (AMat (mmul m w)) h) l (bind_world (length (rh_mem h))))
        | _, _ => RDiverge
        end
    end.
  Fixpoint each_part (f : loc -> rheap -> rres) (ls : list loc) (h : rheap) : rres :=
    match ls with
    | [] => ROk h
    | l :: r => rbind (f l h) (each_part f r)
    end.
  (** world_objects.py:271-280, 288-295, csg.py:175-179: the same argument goes to the parts *)
  Fixpoint rtransform (fuel : nat) (l : loc) (t : addr) (h : rheap) : rres :=
    match fuel with
    | O => RDiverge
    | S n =>
        match rget h l with
        | None => RRaise AttributeError h
        | Some o => rbind (rappend_own l t h) (each_part (fun c => rtransform n c t) (children (r_kind o)))
        end
    end.

  (** world_objects.py:79-104: six new arrays *)
  Definition ralloc (k : kind) (h : rheap) : rheap :=
    let a := length (rh_mem h) in
    RHeap (S (rh_next h))
      (rh_mem h ++ [AVec (point 0 0 0); AVec (vector 0 0 1); AVec (point 0 0 0); AVec (vector 0 0 1); AMat mid; AMat mid])
      (rh_objs h ++ [RObj (rh_next h) k (4 + a)%nat (5 + a)%nat a (1 + a)%nat (2 + a)%nat (3 + a)%nat [HMat (length (rh_objs h))] empty_box 1]).
  Definition rvalid_locs (h : rheap) (ms : list loc) : bool := forallb (fun x => Nat.ltb x (length (rh_objs h))) ms.
  (** world_objects.py:284-286 *)
  Definition rnew_group (ms : list loc) (h : rheap) : rres :=
    if rvalid_locs h ms then ROk (ralloc (KGroup ms) h) else RRaise AttributeError h.
  (** collections.UserList, as in World.v *)
  Definition rgroup_set (g : loc) (ms : list loc) (h : rheap) : rres :=
    match rget h g with
    | Some o =>
        match r_kind o with
        | KGroup _ => if rvalid_locs h ms then ROk (rupd h g (bind_members ms)) else RRaise AttributeError h
        | _ => RRaise AttributeError h
        end
    | None => RRaise AttributeError h
    end.
  (** world_objects.py:341-350 *)
  Definition rnew_surface (p : prim) (m : material) (h : rheap) : rres :=
    let l := length (rh_objs h) in
    let h1 := ralloc (KSurf p m) h in
    match prim_init p with
    | None => RRaise ValueError (RHeap (S (rh_next h)) (rh_mem h) (rh_objs h))
    | Some _ =>
        let h2 := rupd h1 l (bind_box (bounding_box (bounding_points p))) in
        ROk (rupd h2 l (fun o => bind_watch (r_watch o ++ [HLeafBox l]) o))
    end.
  (** world_objects.py:315-317 *)
  Definition rattach_to (child parent : loc) (h : rheap) : rres :=
    match rget h child, rget h parent with
    | Some c, Some p =>
        match r_kind c with
        | KSurf _ _ | KCsg _ _ _ => ROk (rupd h child (bind_watch (r_watch c ++ r_watch p)))
        | _ => RRaise AttributeError h
        end
    | _, _ => RRaise AttributeError h
    end.
  (** world_objects.py:319-323, csg.py:162-168 *)
  Fixpoint rset_normals (fuel : nat) (k : R) (l : loc) (h : rheap) : rres :=
    match fuel with
    | O => RDiverge
    | S n =>
        match rget h l with
        | Some o =>
            match r_kind o with
            | KSurf _ _ => ROk (rupd h l (bind_nscale k))
            | KCsg _ lc rc => rbind (rset_normals n k lc h) (rset_normals n k rc)
            | _ => RRaise AttributeError h
            end
        | None => RRaise AttributeError h
        end
    end.
  Definition rdepth (h : rheap) : nat := S (length (rh_objs h)).
  (** csg.py:65-91 *)
  Definition rnew_csg (op : operation) (lc rc : loc) (h : rheap) : rres :=
    if negb (rvalid_locs h [lc; rc]) then RRaise AttributeError h else
    let l := length (rh_objs h) in
    let h1 := ralloc (KCsg op lc rc) h in
    let h2 := rupd h1 l (fun o => bind_watch (r_watch o ++ [HCsgBox l]) o) in
    rbind (rattach_to lc l h2) (fun h3 =>
    rbind (rattach_to rc l h3) (fun h4 =>
    rbind (match op with DIFFERENCE => rset_normals (rdepth h4) (-1) rc h4 | _ => ROk h4 end) (fun h5 =>
    rrun_handler (HCsgBox l) h5))).
  (** world_objects.py:196-269: a movement makes its own array *)
  Definition rapply_motion (l : loc) (o : motion) (h : rheap) : rres :=
    match motion_matrix o with
    | None => RRaise ValueError h
    | Some t => rtransform (rdepth h) l (length (rh_mem h)) (new_arr (AMat t) h)
    end.
  Definition rrun_call (c : call) (h : rheap) : rres :=
    match c with
    | CPlain => ROk (ralloc KPlain h)
    | CSurface p m => rnew_surface p m h
    | CGroup ms => rnew_group ms h
    | CSetMembers g ms => rgroup_set g ms h
    | CCsg op l r => rnew_csg op l r h
    | CMotion l o => rapply_motion l o h
    | CInvert l => rset_normals (rdepth h) (-1) l h
    | CReset l => rset_normals (rdepth h) 1 l h
    end.
End Sorting.

(** The object at [l] as [intersect] and [get_world_normals] read it at this instant (world_objects.py:360-383,
    401-418, csg.py:118-160): as [World.shape_of] *)
Fixpoint rshape_fuel (fuel : nat) (h : rheap) (l : loc) : option shape :=
  match fuel with
  | O => None
  | S n =>
      match rget h l with
      | Some o =>
          match r_kind o with
          | KSurf p m =>
              match mat_in h (r_world o), mat_in h (r_obj o) with
              | Some w, Some i => Some (Leaf (Surf (Z.of_nat (r_id o)) p w i (r_nscale o) m) (r_box o))
              | _, _ => None
              end
          | KCsg op lc rc =>
              match rshape_fuel n h lc, rshape_fuel n h rc with
              | Some a, Some b => Some (Node (Z.of_nat (r_id o)) op (r_box o) a b)
              | _, _ => None
              end
          | _ => None
          end
      | None => None
      end
  end.
Definition rshape_of (h : rheap) (l : loc) : option shape := rshape_fuel (rdepth h) h l.

(** ** The caller *)
(** What a caller can do with arrays, besides the calls of World.v.  They name the arrays they hold by the order
    in which they got them. *)
Inductive astmt : Type :=
| Does (c : call)                                     (* any call of World.v *)
| GetWorld (l : loc) | GetObject (l : loc)            (* x = o.get_world_transform(), x = o.get_object_transform() *)
| GetPosition (l : loc) | GetOrientation (l : loc)    (* x = o.get_position(), x = o.get_orientation() *)
| NewMatrix (m : mat)                                 (* x = np.array(...) *)
| Write (k : nat) (f : mat -> mat) (g : v4 -> v4)     (* x[...] = ..., x *= ..., x.normalize(): any change in place *)
| TransformBy (l : loc) (k : nat).                    (* o.transform(x) *)

(** The objects, and the addresses the caller has *)
Record rstate : Type := RState { rs_heap : rheap; rs_held : list addr }.
Definition change (f : mat -> mat) (g : v4 -> v4) (x : array) : array := match x with AMat m => AMat (f m) | AVec v => AVec (g v) end.

(** One statement; [None] is a statement that makes no sense (an object or an array that is not there, a vector given to [transform], or an
    endless recursion).  The caller catches exceptions and goes on with the objects as they are.
    [copy.copy] (world_objects.py:169, 187) makes a new array; [get_position] and [get_orientation]
    (133-154) hand out the array itself. *)
Definition rstep (asort : list xr -> list nat) (c : astmt) (s : rstate) : option (rstate * option exn) :=
  let h := rs_heap s in
  let after (r : rres) :=
    match r with ROk h => Some (RState h (rs_held s), None) | RRaise e h => Some (RState h (rs_held s), Some e) | RDiverge => None end in
  let gets (h : rheap) (a : addr) := Some (RState h (rs_held s ++ [a]), None) in
  match c with
  | Does c => after (rrun_call asort c h)
  | GetWorld l =>
      match rget h l with
      | Some o => match mat_in h (r_world o) with Some m => gets (new_arr (AMat m) h) (length (rh_mem h)) | None => None end
      | None => None
      end
  | GetObject l =>
      match rget h l with
      | Some o => match mat_in h (r_obj o) with Some m => gets (new_arr (AMat m) h) (length (rh_mem h)) | None => None end
      | None => None
      end
  | GetPosition l => match rget h l with Some o => gets h (r_origin o) | None => None end
  | GetOrientation l => match rget h l with Some o => gets h (r_dir o) | None => None end
  | NewMatrix m => gets (new_arr (AMat m) h) (length (rh_mem h))
  | Write k f g =>
      match nth_error (rs_held s) k with
      | Some a => Some (RState (RHeap (rh_next h) (list_upd (rh_mem h) a (change f g)) (rh_objs h)) (rs_held s), None)
      | None => None
      end
  | TransformBy l k =>
      match nth_error (rs_held s) k with
      | Some a => match mat_in h a with Some _ => after (rtransform asort (rdepth h) l a h) | None => None end
      | None => None
      end
  end.
(** A program: where it ends, and what its calls raised *)
Fixpoint rrun (asort : list xr -> list nat) (cs : list astmt) (s : rstate) : option (rstate * list (option exn)) :=
  match cs with
  | [] => Some (s, [])
  | c :: r =>
      match rstep asort c s with
      | None => None
      | Some (s', e) => match rrun asort r s' with None => None | Some (s'', es) => Some (s'', e :: es) end
      end
  end.
Definition rstart : rstate := RState (RHeap 0 [] []) [].
