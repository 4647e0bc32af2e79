(** * SpecMoved: which boxes a CSG object stores after it, or a part of it, was moved
    Specification only. *)
From Coq Require Import Reals List Bool ZArith.
Import ListNotations.
From Verif Require Import XR Arr Lin LinFacts Prim Csg Surf World SpecTree.
Open Scope R_scope.

(** The box of an operand as its parent sees it while the operand [b] is being moved to [b']: that of a
    surface is already the new one; that of a CSG object is combined from the boxes its own operands had
    before the movement. *)
Definition seen_box (asort : list xr -> list nat) (b b' : shape) : box :=
  match b with
  | Leaf _ _ => shape_box b'
  | Node _ op _ c d => csg_box asort op (shape_box c) (shape_box d)
  end.
(** [s] was moved by the matrix [t] and is now [s'].  Every surface is moved and has its own new box.  The
    box stored in a CSG object is combined from the new box of the left operand and the box that is seen
    of the right one while it is moved. *)
Fixpoint moved_to (asort : list xr -> list nat) (t : mat) (s s' : shape) : Prop :=
  match s, s' with
  | Leaf f _, Leaf f' b' =>
      s_id f' = s_id f /\ s_prim f' = s_prim f /\ s_mat f' = s_mat f /\ s_nscale f' = s_nscale f /\
      s_world f' = mmul t (s_world f) /\ is_inverse (s_world f') (s_obj f') /\ b' = surf_box (s_prim f') (s_world f')
  | Node i op _ a b, Node i' op' bx' a' b' =>
      i' = i /\ op' = op /\ moved_to asort t a a' /\ moved_to asort t b b' /\
      bx' = csg_box asort op (shape_box a') (seen_box asort b b')
  | _, _ => False
  end.
(** The way from a CSG object down to a part of it *)
Inductive side : Type := OnLeft | OnRight.
Fixpoint part_at (h : heap) (p : list side) (l x : loc) : Prop :=
  match p with
  | [] => x = l
  | d :: p => exists o op a b, get h l = Some o /\ o_kind o = KCsg op a b /\ part_at h p (match d with OnLeft => a | OnRight => b end) x
  end.
(** The part of [s] at [p] was moved by [t]: only it, its parts, and the box of the object it is a direct
    operand of change. *)
Fixpoint part_moved_to (asort : list xr -> list nat) (t : mat) (p : list side) (s s' : shape) : Prop :=
  match p, s, s' with
  | [], _, _ => moved_to asort t s s'
  | OnLeft :: p, Node i op bx a b, Node i' op' bx' a' b' =>
      i' = i /\ op' = op /\ b' = b /\ part_moved_to asort t p a a' /\
      bx' = match p with [] => csg_box asort op (seen_box asort a a') (shape_box b) | _ => bx end
  | OnRight :: p, Node i op bx a b, Node i' op' bx' a' b' =>
      i' = i /\ op' = op /\ a' = a /\ part_moved_to asort t p b b' /\
      bx' = match p with [] => csg_box asort op (shape_box a) (seen_box asort b b') | _ => bx end
  | _, _, _ => False
  end.
(** How many movements it takes until the stored boxes fit, if all but the first one are idle *)
Fixpoint lag (s : shape) : nat :=
  match s with
  | Leaf _ _ => 1
  | Node _ op _ a b =>
      Nat.max (Nat.max (lag a) (lag b))
        match op, b with
        | DIFFERENCE, _ | _, Leaf _ _ => 1
        | _, Node _ _ _ c d => S (Nat.max (lag c) (lag d))
        end
  end.
