(** * SpecSeen: what the hits of a CSG object along a ray show
    A CSG object stores a bounding box, and skips a ray that does not pass through it
    (csg.py:127-129).  The object then counts as empty for that ray. *)
From Coq Require Import Reals.
From Verif Require Import Lin Prim Csg Surf SpecGeom SpecTree.
Open Scope R_scope.

(** The ray passes through the box: two different points of its line lie in it. *)
Definition crosses (b : box) (r : ray) : Prop :=
  exists t t', t < t' /\ in_box b (ray_at r t) /\ in_box b (ray_at r t').

(** The points the object seems to consist of, for the ray [r]. *)
Fixpoint shown (s : shape) (r : ray) (q : v4) : Prop :=
  match s with
  | Leaf f _ => placed f q
  | Node _ op b l rt =>
      crosses b r /\
      match op with
      | UNION => shown l r q \/ shown rt r q
      | INTERSECT => shown l r q /\ shown rt r q
      | DIFFERENCE => shown l r q /\ ~ shown rt r q
      end
  end.

(** The interval a union stores for one axis: the parts' common extent if they overlap, but
    the extent of the lower part alone if there is a gap between them. *)
Definition union_extent (a0 a1 b0 b1 lo hi : R) : Prop :=
  (a0 < b1 /\ b0 < a1 /\ lo = Rmin a0 b0 /\ hi = Rmax a1 b1) \/
  (a1 < b0 /\ lo = a0 /\ hi = a1) \/
  (b1 < a0 /\ lo = b0 /\ hi = b1).

(** Whatever is subtracted in the object is a single surface, not a CSG object. *)
Fixpoint simple_cuts (s : shape) : Prop :=
  match s with
  | Leaf _ _ => True
  | Node _ op _ l r => simple_cuts l /\
      match op with DIFFERENCE => match r with Leaf _ _ => True | _ => False end | _ => simple_cuts r end
  end.
