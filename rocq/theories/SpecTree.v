(** * SpecTree: the solid a placed CSG tree stands for, boxes, and admissible rays
    Specification only. *)
From Coq Require Import Reals List Bool.
Import ListNotations.
From Verif Require Import XR Arr Lin LinFacts Prim Csg Surf SpecGeom CsgProps.
Open Scope R_scope.

(** A point of the placed primitive: the image of a point of the local solid. *)
Definition placed (s : surf) (q : v4) : Prop :=
  exists p, vw p = 1 /\ solid (s_prim s) p /\ mapply (s_world s) p = q.

(** The region a tree stands for. *)
Fixpoint inside (s : shape) (q : v4) : Prop :=
  match s with
  | Leaf f _ => placed f q
  | Node _ UNION _ l r => inside l q \/ inside r q
  | Node _ INTERSECT _ l r => inside l q /\ inside r q
  | Node _ DIFFERENCE _ l r => inside l q /\ ~ inside r q
  end.

(** Closed intervals and boxes with possibly infinite ends. *)
Definition in_span (sp : xr * xr) (x : R) : Prop :=
  xleb (fst sp) (Fin x) = true /\ xleb (Fin x) (snd sp) = true.
Definition in_box (b : box) (q : v4) : Prop :=
  in_span (spanx b) (vx q) /\ in_span (spany b) (vy q) /\ in_span (spanz b) (vz q).

(** A surface whose stored transforms belong together. *)
Definition surf_ok (s : surf) : Prop :=
  prim_ok (s_prim s) /\ affine (s_world s) /\ is_inverse (s_world s) (s_obj s).

(** Every surface of the tree is [surf_ok]. *)
Fixpoint tree_ok (s : shape) : Prop :=
  match s with
  | Leaf f _ => surf_ok f
  | Node _ _ _ l r => tree_ok l /\ tree_ok r
  end.

(** The stored boxes are what the code computes from the current placement
    (whatever order np.argsort leaves ties in). *)
Fixpoint boxes_current (s : shape) : Prop :=
  match s with
  | Leaf f b => b = surf_box (s_prim f) (s_world f)
  | Node _ op b l r =>
      boxes_current l /\ boxes_current r /\
      exists asort, argsort_ok asort /\ b = csg_box asort op (shape_box l) (shape_box r)
  end.

(** A proper closed interval, or the pair (inf, inf) the code uses for "empty". *)
Definition vspan (s : xr * xr) : Prop :=
  (exists lo hi, s = (Fin lo, Fin hi) /\ lo <= hi) \/ s = (PInf, PInf).
Definition vbox (b : box) : Prop := vspan (spanx b) /\ vspan (spany b) /\ vspan (spanz b).
Definition no_span (sp : xr * xr) : Prop := sp = (PInf, PInf).
(** The two intervals share more than a point. *)
Definition overlapping (a b : xr * xr) : Prop :=
  xltb (xmax (fst a) (fst b)) (xmin (snd a) (snd b)) = true.
(** There is a gap between the two intervals. *)
Definition apart (a b : xr * xr) : Prop :=
  xltb (xmin (snd a) (snd b)) (xmax (fst a) (fst b)) = true.

(** The relative positions for which the code computes a box that contains the
    result: parts of a union must overlap along every axis (or one be empty), parts
    of an intersection must not merely touch. *)
Definition span_fits (op : operation) (a b : xr * xr) : Prop :=
  match op with
  | UNION => overlapping a b \/ no_span a \/ no_span b
  | INTERSECT => overlapping a b \/ apart a b \/ (no_span a /\ no_span b)
  | DIFFERENCE => True
  end.
Definition box_fits (op : operation) (a b : box) : Prop :=
  span_fits op (spanx a) (spanx b) /\ span_fits op (spany a) (spany b) /\
  span_fits op (spanz a) (spanz b).
(** Only the axes along which the ray does not move matter for the culling of one ray. *)
Definition fits_across (op : operation) (a b : box) (r : ray) : Prop :=
  (vx (direction r) = 0 -> span_fits op (spanx a) (spanx b)) /\
  (vy (direction r) = 0 -> span_fits op (spany a) (spany b)) /\
  (vz (direction r) = 0 -> span_fits op (spanz a) (spanz b)).
Fixpoint boxes_fit (s : shape) : Prop :=
  match s with
  | Leaf _ _ => True
  | Node _ op _ l r => boxes_fit l /\ boxes_fit r /\ box_fits op (shape_box l) (shape_box r)
  end.

(** World rays: a point, a direction, not inside numpy's isclose bands in the world
    nor in the local frame of a surface; a ray may not run along a plane. *)
Definition world_ray (r : ray) : Prop :=
  vw (origin r) = 1 /\ vw (direction r) = 0 /\ moving r.
Definition clear_dir (r : ray) : Prop :=
  clear (vx (direction r)) /\ clear (vy (direction r)) /\ clear (vz (direction r)).
Definition good_local (p : prim) (r : ray) : Prop :=
  clear_ray p r /\ match p with PPlane _ _ => vz (direction r) <> 0 | _ => True end.
Fixpoint good_ray (s : shape) (r : ray) : Prop :=
  match s with
  | Leaf f _ => good_local (s_prim f) (ray_map (s_obj f) r)
  | Node _ _ _ l rt => clear_dir r /\ good_ray l r /\ good_ray rt r
  end.
