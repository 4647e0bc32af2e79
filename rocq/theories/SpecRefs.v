(** * SpecRefs: what the theorems about shared arrays say
    Specification only. *)
From Coq Require Import Reals List Bool ZArith.
Import ListNotations.
From Verif Require Import XR Arr Lin Prim Csg Surf World Refs.
Open Scope R_scope.

(** ** The same programs when nothing is shared: the caller holds values.  A getter hands out a value, writing
    into it changes that value and nothing else, and [transform] is given the value. *)
Record cstate : Type := CState { cs_heap : heap; cs_held : list array }.
Definition cstep (asort : list xr -> list nat) (c : astmt) (s : cstate) : option (cstate * option exn) :=
  let h := cs_heap s in
  let after (r : res) :=
    match r with Ok h => Some (CState h (cs_held s), None) | Raise e h => Some (CState h (cs_held s), Some e) | Diverge => None end in
  let gets (x : array) := Some (CState h (cs_held s ++ [x]), None) in
  match c with
  | Does c => after (run_call asort c h)
  | GetWorld l => match get h l with Some o => gets (AMat (get_world_transform o)) | None => None end
  | GetObject l => match get h l with Some o => gets (AMat (get_object_transform o)) | None => None end
  | GetPosition l => match get h l with Some o => gets (AVec (get_position o)) | None => None end
  | GetOrientation l => match get h l with Some o => gets (AVec (get_orientation o)) | None => None end
  | NewMatrix m => gets (AMat m)
  | Write k f g =>
      match nth_error (cs_held s) k with
      | Some _ => Some (CState h (list_upd (cs_held s) k (change f g)), None)
      | None => None
      end
  | TransformBy l k =>
      match nth_error (cs_held s) k with Some (AMat m) => after (run_call asort (CMotion l (Transform m)) h) | _ => None end
  end.
Fixpoint crun (asort : list xr -> list nat) (cs : list astmt) (s : cstate) : option (cstate * list (option exn)) :=
  match cs with
  | [] => Some (s, [])
  | c :: r =>
      match cstep asort c s with
      | None => None
      | Some (s', e) => match crun asort r s' with None => None | Some (s'', es) => Some (s'', e :: es) end
      end
  end.
Definition cstart : cstate := CState empty_heap [].

(** ** What can be seen of the arrays *)
(** The [k]-th array the caller got, as it is now *)
Definition holds (s : rstate) (k : nat) : option array :=
  match nth_error (rs_held s) k with Some a => nth_error (rh_mem (rs_heap s)) a | None => None end.
(** What the getters of the object [l] would return *)
Definition world_now (s : rstate) (l : loc) : option mat :=
  match rget (rs_heap s) l with Some o => mat_in (rs_heap s) (r_world o) | None => None end.
Definition object_now (s : rstate) (l : loc) : option mat :=
  match rget (rs_heap s) l with Some o => mat_in (rs_heap s) (r_obj o) | None => None end.
Definition position_now (s : rstate) (l : loc) : option v4 :=
  match rget (rs_heap s) l with Some o => vec_in (rs_heap s) (r_origin o) | None => None end.
Definition orientation_now (s : rstate) (l : loc) : option v4 :=
  match rget (rs_heap s) l with Some o => vec_in (rs_heap s) (r_dir o) | None => None end.
Definition id_now (s : rstate) (l : loc) : option nat := option_map r_id (rget (rs_heap s) l).
Definition kind_now (s : rstate) (l : loc) : option kind := option_map r_kind (rget (rs_heap s) l).

(** Objects agree in everything but position and orientation: their ids and kinds, both transforms, and the
    solids they are seen as (with boxes, normals and materials) *)
Definition objects_agree (s : rstate) (c : cstate) : Prop :=
  forall l, id_now s l = option_map o_id (get (cs_heap c) l) /\ kind_now s l = option_map o_kind (get (cs_heap c) l) /\
    world_now s l = option_map get_world_transform (get (cs_heap c) l) /\
    object_now s l = option_map get_object_transform (get (cs_heap c) l) /\
    rshape_of (rs_heap s) l = shape_of (cs_heap c) l.
(** Positions and orientations agree, too *)
Definition places_agree (s : rstate) (c : cstate) : Prop :=
  forall l, position_now s l = option_map get_position (get (cs_heap c) l) /\
    orientation_now s l = option_map get_orientation (get (cs_heap c) l).
(** The caller holds the same matrices, or the same arrays altogether *)
Definition matrices_agree (s : rstate) (c : cstate) : Prop :=
  length (rs_held s) = length (cs_held c) /\
  forall k m, holds s k = Some (AMat m) <-> nth_error (cs_held c) k = Some (AMat m).
Definition arrays_agree (s : rstate) (c : cstate) : Prop := forall k, holds s k = nth_error (cs_held c) k.

(** Which of the arrays the caller gets from [get_position] or [get_orientation], in the order they get them *)
Fixpoint from_places (cs : list astmt) : list bool :=
  match cs with
  | [] => []
  | (GetPosition _ | GetOrientation _) :: r => true :: from_places r
  | (GetWorld _ | GetObject _ | NewMatrix _) :: r => false :: from_places r
  | _ :: r => from_places r
  end.
(** The program never writes into one of those *)
Definition leaves_places_alone (cs : list astmt) : Prop :=
  forall k f g, In (Write k f g) cs -> nth_error (from_places cs) k = Some false.
