(** * SpecApart: objects that have never been put together
    Specification only. *)
From Coq Require Import Reals List Bool.
Import ListNotations.
From Verif Require Import XR Arr Lin Prim Csg Surf World.
Open Scope R_scope.

(** The objects a call is given. *)
Definition names (c : call) : list loc :=
  match c with
  | CPlain | CSurface _ _ => []
  | CGroup ms => ms
  | CSetMembers g ms => g :: ms
  | CCsg _ l r => [l; r]
  | CMotion l _ | CInvert l | CReset l => [l]
  end.
(** [concerns h c h' l]: the call [c], which took the state [h] to [h'], was given the
    object [l] or made it. *)
Definition concerns (h : heap) (c : call) (h' : heap) (l : loc) : Prop :=
  In l (names c) \/ (length (h_objs h) <= l < length (h_objs h'))%nat.
(** The state a call leaves, whether it returned or raised. *)
Definition left_by (r : res) (h' : heap) : Prop := r = Ok h' \/ exists e, r = Raise e h'.
(** In this program no call brings an object of the set [mine] together with one outside
    it: each call concerns objects of [mine] only, or none of them. Calls that raise are
    caught. *)
Inductive never_together (asort : list xr -> list nat) (mine : loc -> Prop) : heap -> list call -> heap -> Prop :=
| nt_done : forall h, never_together asort mine h [] h
| nt_mine : forall h c h1 cs h', left_by (run_call asort c h) h1 -> (forall l, concerns h c h1 l -> mine l) ->
    never_together asort mine h1 cs h' -> never_together asort mine h (c :: cs) h'
| nt_other : forall h c h1 cs h', left_by (run_call asort c h) h1 -> (forall l, concerns h c h1 l -> ~ mine l) ->
    never_together asort mine h1 cs h' -> never_together asort mine h (c :: cs) h'.
