(** * SpecListed: what a ray does in any scene
    Specification only. *)
From Coq Require Import Reals List Bool ZArith.
Import ListNotations.
From Verif Require Import XR Arr Lin LinFacts Prim Csg Surf World SpecOptics Tracer SpecTrace.
Open Scope R_scope.

(** How often the surface with that id is listed among [known], the surfaces of the
    components the tracer was built with *)
Definition listed (known : list surf) (sid : Z) : nat := length (filter (fun s => Z.eqb (s_id s) sid) known).

(** [k] times over: the ray goes [t] of its directions on, and the surface acts on it. *)
Fixpoint met_again (k : nat) (s : surf) (t : R) (c : col) : option col :=
  match k with
  | O => Some c
  | S k => match material_trace s (forward t c) with Some c' => met_again k s t c' | None => None end
  end.

(** As [history], except that a surface acts as often as it is listed. *)
Inductive listed_history (asort : list xr -> list nat) (comps : list shape) (known : list surf) (limit : Z)
  : nat -> col -> list row -> Prop :=
| Listed_limit : forall g c,
    (0 < g)%nat -> Z.of_nat g = limit -> listed_history asort comps known limit g c []
| Listed_stopped : forall g c,
    stopped c \/ no_hit asort comps (c_ray c) -> listed_history asort comps known limit g c []
| Listed_hit : forall g c t sid s c' rows,
    (g = O \/ Z.of_nat g <> limit) -> ~ stopped c ->
    first_hit asort comps (c_ray c) t sid ->
    In s (flat_map surface_ids comps) -> s_id s = sid ->
    met_again (listed known sid) s t c = Some c' ->
    listed_history asort comps known limit (S g) (forward ray_offset_value (with_gen (S g) c')) rows ->
    listed_history asort comps known limit g c
      (Row (c_gen c) (c_int c) (c_wl c) (c_idx c) (c_id c) sid
           (trim (origin (c_ray c))) (trim (origin (c_ray c'))) (hat (trim (direction (c_ray c)))) :: rows).
