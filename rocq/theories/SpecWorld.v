(** * SpecWorld: what the theorems about world objects say
    Specification only. *)
From Coq Require Import Reals List Bool ZArith.
Import ListNotations.
From Verif Require Import XR Arr Lin LinFacts Prim Csg Surf World.
Open Scope R_scope.

(** The parts of an object: itself and the parts of its children, once per path.
    [n] bounds the depth; the number of objects is always enough. *)
Fixpoint parts_upto (n : nat) (h : heap) (l : loc) : list loc :=
  match n with
  | O => []
  | S n =>
      l :: match get h l with
           | Some o => flat_map (parts_upto n h) (children (o_kind o))
           | None => []
           end
  end.
Definition parts (h : heap) (l : loc) : list loc := parts_upto (depth h) h l.

(** How often [x] occurs among the parts of [l] *)
Definition times (h : heap) (l x : loc) : nat := count_occ Nat.eq_dec (parts h l) x.

Fixpoint power (n : nat) (m : mat) : mat :=
  match n with O => mid | S k => mmul m (power k m) end.

(** Two heaps with the same objects, of the same kinds, with the same ids. *)
Definition same_objects (h h' : heap) : Prop :=
  length (h_objs h) = length (h_objs h') /\
  forall x o, get h x = Some o ->
  exists o', get h' x = Some o' /\ o_id o' = o_id o /\ o_kind o' = o_kind o.

(** What an object reports about its place in the world is consistent. *)
Definition consistent (o : obj) : Prop :=
  is_inverse (get_world_transform o) (get_object_transform o) /\
  (forall v, to_object_coordinates o (to_world_coordinates o v) = v) /\
  (forall v, to_world_coordinates o (to_object_coordinates o v) = v) /\
  get_position o = to_world_coordinates o (point 0 0 0) /\
  vnorm (get_orientation o) = 1 /\
  exists k, 0 < k /\ get_orientation o = vscale k (to_world_coordinates o (vector 0 0 1)).

(** The box stored in a CSG object is the one computed from its children now. *)
Definition box_current (asort : list xr -> list nat) (h : heap) (x : loc) : Prop :=
  forall o op l r, get h x = Some o -> o_kind o = KCsg op l r ->
  exists a b, box_of h l = Some a /\ box_of h r = Some b /\ o_box o = csg_box asort op a b.

(** No CSG object below [l] (or [l] itself) that is a union or intersection has a CSG
    object as its right operand. *)
Definition right_simple (h : heap) (l : loc) : Prop :=
  forall x o op a b, In x (parts h l) -> get h x = Some o -> o_kind o = KCsg op a b ->
  op = DIFFERENCE \/ exists ob p m, get h b = Some ob /\ o_kind ob = KSurf p m.

(** A CSG expression and the program that builds it from fresh surfaces in a heap that
    holds [n] objects: the calls, and where the result ends up. *)
Inductive expr : Type :=
| EPrim (p : prim) (m : material)
| EBin (op : operation) (a b : expr).
Fixpoint calls (e : expr) (n : nat) : list call * loc :=
  match e with
  | EPrim p m => ([CSurface p m], n)
  | EBin op a b =>
      let '(ca, la) := calls a n in
      let '(cb, lb) := calls b (S la) in
      (ca ++ cb ++ [CCsg op la lb], S lb)
  end.
(** How often each leaf (in order) is subtracted, given that the whole is subtracted
    [k] times. *)
Fixpoint subtractions (k : nat) (e : expr) : list nat :=
  match e with
  | EPrim _ _ => [k]
  | EBin DIFFERENCE a b => subtractions k a ++ subtractions (S k) b
  | EBin _ a b => subtractions k a ++ subtractions k b
  end.

(** The matrix of a sequence of movements: later ones multiply on the left. *)
Fixpoint composed (ms : list motion) : option mat :=
  match ms with
  | [] => Some mid
  | m :: r =>
      match motion_matrix m, composed r with
      | Some t, Some u => Some (mmul u t)
      | _, _ => None
      end
  end.

(** Two objects without a common part *)
Definition apart_from (h : heap) (a b : loc) : Prop :=
  forall x, In x (parts h a) -> In x (parts h b) -> False.

(** [x] sits in the same place relative to [l] in both heaps *)
Definition same_place (h h' : heap) (l x : loc) : Prop :=
  exists r ol ox ol' ox',
    get h l = Some ol /\ get h x = Some ox /\ get h' l = Some ol' /\ get h' x = Some ox' /\
    o_world ox = mmul (o_world ol) r /\ o_world ox' = mmul (o_world ol') r.

(** Everything an object reports about its place, identity and operands is the same. *)
Definition unmoved (o o' : obj) : Prop :=
  o_id o' = o_id o /\ o_kind o' = o_kind o /\ o_nscale o' = o_nscale o /\
  get_world_transform o' = get_world_transform o /\ get_object_transform o' = get_object_transform o /\
  get_position o' = get_position o /\ get_orientation o' = get_orientation o.

(** Distance between two points *)
Definition dist (p q : v4) : R := vnorm (vsub p q).
