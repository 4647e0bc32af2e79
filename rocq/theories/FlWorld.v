(** * FlWorld: moving an object, with rounding

    The code of world_objects.py that places an object, with the result of every operation rounded by
    [rnd].  SIMPLIFICATION: no operation overflows; one object without parts (a group or a CSG object calls
    the same code for each of its parts); calls that raise for their arguments are left out (they change
    nothing); [np.linalg.inv], which gives the object transform, is not modelled here. *)
From Coq Require Import Reals List Bool.
Import ListNotations.
From Verif Require Import XR Lin World Fl FlHits.
Open Scope R_scope.

Section FlWorld.
  Variable rnd : R -> R.
  (** [np.sin] and [np.cos] *)
  Variables fsin fcos : R -> R.

  (** [np.matmul(a, b)]: every column of the product is the product of [a] and that column of [b] *)
  Definition fl_matmul (a b c : mat) : Prop :=
    fl_image rnd a (row0 (mtrans b)) (row0 (mtrans c)) /\ fl_image rnd a (row1 (mtrans b)) (row1 (mtrans c)) /\
    fl_image rnd a (row2 (mtrans b)) (row2 (mtrans c)) /\ fl_image rnd a (row3 (mtrans b)) (row3 (mtrans c)).

  (** world_objects.py:58-78 [_sin_cos] *)
  Definition fl_sin_cos (angle : R) (u : units) : option (R * R) :=
    match u with
    | Deg => let x := rnd (rnd (angle * rnd PI) / 180) in Some (fsin x, fcos x)
    | Rad => Some (fsin angle, fcos angle)
    | OtherUnit => None
    end.

  (** world_objects.py:196-280: the matrix each operation builds; see [motion_matrix] in World.v *)
  Definition fl_motion_matrix (o : motion) : option mat :=
    match o with
    | Move x y z => Some (M4 (V4 1 0 0 x) (V4 0 1 0 y) (V4 0 0 1 z) (V4 0 0 0 1))      (* 196-201 *)
    | Scale x y z =>                                                                  (* 216-223 *)
        if (rltb x 0 || rltb y 0 || rltb z 0)%bool then None
        else Some (M4 (V4 x 0 0 0) (V4 0 y 0 0) (V4 0 0 z 0) (V4 0 0 0 1))
    | RotX a u =>                                                                     (* 238-247 *)
        match fl_sin_cos a u with
        | None => None
        | Some (s, c) => Some (M4 (V4 1 0 0 0) (V4 0 c (- s) 0) (V4 0 s c 0) (V4 0 0 0 1))
        end
    | RotY a u =>                                                                     (* 249-258 *)
        match fl_sin_cos a u with
        | None => None
        | Some (s, c) => Some (M4 (V4 c 0 s 0) (V4 0 1 0 0) (V4 (- s) 0 c 0) (V4 0 0 0 1))
        end
    | RotZ a u =>                                                                     (* 260-269 *)
        match fl_sin_cos a u with
        | None => None
        | Some (s, c) => Some (M4 (V4 c (- s) 0 0) (V4 s c 0 0) (V4 0 0 1 0) (V4 0 0 0 1))
        end
    | Transform m => Some m                                                           (* 271-280 *)
    end.

  (** world_objects.py:80-104: what an object stores and reports *)
  Record fl_object : Type := FlObject { fl_world : mat; fl_position : v4; fl_orientation : v4 }.
  Definition fl_new : fl_object := FlObject mid (point 0 0 0) (vector 0 0 1).

  (** world_objects.py:106-120 [_world_matrix_update_handler]; [None] is the ValueError for a short direction *)
  Inductive fl_handler (w : mat) : option fl_object -> Prop :=
  | Fl_set : forall p d n, fl_image rnd w (point 0 0 0) p -> fl_image rnd w (vector 0 0 1) d -> fl_norm rnd d n ->
      rltb n (rnd (1 / 10000000)) = false -> fl_handler w (Some (FlObject w p (vround rnd (vscale (/ n) d))))
  | Fl_error : forall d n, fl_image rnd w (vector 0 0 1) d -> fl_norm rnd d n ->
      rltb n (rnd (1 / 10000000)) = true -> fl_handler w None.

  (** world_objects.py:127-132 [_append_world_transform]: one call of a movement operation *)
  Definition fl_call (st : fl_object) (o : motion) (r : option fl_object) : Prop :=
    exists t w, fl_motion_matrix o = Some t /\ fl_matmul t (fl_world st) w /\ fl_handler w r.
  (** A new object after these calls, the last one at the end of the list *)
  Inductive fl_history : list motion -> option fl_object -> Prop :=
  | Fl_start : fl_history [] (Some fl_new)
  | Fl_moved : forall os st o r, fl_history os (Some st) -> fl_call st o r -> fl_history (os ++ [o]) r.
End FlWorld.
