(** * SpecGlassCache: what the theorems about the cache of Abbe numbers say
    Specification only. *)
From Coq Require Import Reals List Bool Arith.
Import ListNotations.
From Verif Require Import XR Arr Prim World Utils GlassCache.
Open Scope R_scope.

(** The same calls when nothing is cached *)
Definition answer (g : glass_obj) : seen_value := match abbe_body g with Some v => Number v | None => DivisionByZero end.
Definition plain_step (c : glass_call) (gs : list glass_obj) : option (list glass_obj * seen_value) :=
  match c with
  | NewGlass g => Some (gs ++ [g], Nothing)
  | Assign k f => match nth_error gs k with Some _ => Some (list_upd gs k (assign f), Nothing) | None => None end
  | IndexAt k w => match nth_error gs k with Some g => Some (gs, Number (index_of g w)) | None => None end
  | Abbe k => match nth_error gs k with Some g => Some (gs, answer g) | None => None end
  end.
Fixpoint plain_run (cs : list glass_call) (gs : list glass_obj) : option (list glass_obj * list seen_value) :=
  match cs with
  | [] => Some (gs, [])
  | c :: r =>
      match plain_step c gs with
      | None => None
      | Some (gs', v) => match plain_run r gs' with None => None | Some (gs'', vs) => Some (gs'', v :: vs) end
      end
  end.
Definition assigns (c : glass_call) : bool := match c with Assign _ _ => true | _ => false end.
Definition asks_abbe (k : nat) (c : glass_call) : bool := match c with Abbe j => Nat.eqb j k | _ => false end.

(** The glasses whose Abbe number a run returned: [vs] is what the calls [cs] returned *)
Definition abbe_returned (k : nat) (cs : list glass_call) (vs : list seen_value) : Prop :=
  exists i x, nth_error cs i = Some (Abbe k) /\ nth_error vs i = Some (Number x).
(** At least [n] glasses other than [k] had their Abbe numbers returned in that run *)
Definition others_returned (n k : nat) (cs : list glass_call) (vs : list seen_value) : Prop :=
  exists ks, NoDup ks /\ length ks = n /\ forall j, In j ks -> j <> k /\ abbe_returned j cs vs.
