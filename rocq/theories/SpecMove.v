(** * SpecMove: which transforms an object can be given *)
From Coq Require Import Reals.
From Verif Require Import XR Lin LinFacts Prim Csg Surf World.
Open Scope R_scope.

(** An object can be given the world transform [w]: it has an inverse, and the object's
    axis does not shrink below 1e-7. *)
Definition can_take (w : mat) : Prop := (exists i, is_inverse w i) /\ / 10000000 <= vnorm (mapply w (vector 0 0 1)).

(** The box of an operand as its parent last saw it, when everything from [h] to [h'] moved:
    a surface as it is now, a CSG object as computed from its own operands before. *)
Definition last_seen (asort : list xr -> list nat) (h h' : heap) (b : loc) (B : box) : Prop :=
  match get h b with
  | Some ob =>
      match o_kind ob with
      | KCsg op c d => exists C D, box_of h c = Some C /\ box_of h d = Some D /\ B = csg_box asort op C D
      | _ => box_of h' b = Some B
      end
  | None => False
  end.
