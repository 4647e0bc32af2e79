(** * SpecShow: what the theorems about draw and show say
    Specification only. *)
From Coq Require Import Reals List Bool ZArith.
Import ListNotations.
From Verif Require Import XR Arr Lin Prim Csg Surf World Tracer Render Renderers Utils Show.
Open Scope R_scope.

(** The coordinates of a point in the axes of a view *)
Definition projected (v : view_name) (p : v4) : R * R :=
  match v with XZ => (vx p, vz p) | _ => (vx p, vy p) end.
(** Where an arrow starts and where it points *)
Definition arrow_tail (a : arrow) : R * R := (a_x a, a_y a).
Definition arrow_tip (a : arrow) : R * R := (a_x a + a_u a, a_y a + a_v a).

(** The arrows are the legs of the frame, in its order, seen in this view. *)
Definition draws_the_legs (v : view_name) (rows : list row) (arrows : list arrow) : Prop :=
  length arrows = length rows /\
  forall k w, nth_error rows k = Some w -> exists a, nth_error arrows k = Some a /\
    arrow_tail a = projected v (row_start w) /\ arrow_tip a = projected v (row_end w).

(** A box between two corners; the corners of the smallest box around all of them *)
Definition box_between (b : box) (lo hi : corner) : Prop :=
  spanx b = (Fin (cx lo), Fin (cx hi)) /\ spany b = (Fin (cy lo), Fin (cy hi)) /\ spanz b = (Fin (cz lo), Fin (cz hi)).
Definition smallest (f : corner -> R) (x : R) (cs : list corner) : Prop :=
  (exists c, In c cs /\ f c = x) /\ forall c, In c cs -> x <= f c.
Definition greatest (f : corner -> R) (x : R) (cs : list corner) : Prop :=
  (exists c, In c cs /\ f c = x) /\ forall c, In c cs -> f c <= x.
Definition around (shapes : list shape) (mins maxes : corner) : Prop :=
  exists boxes : list (corner * corner),
    Forall2 (fun s (q : corner * corner) => box_between (shape_box s) (fst q) (snd q) /\
      cx (fst q) <= cx (snd q) /\ cy (fst q) <= cy (snd q) /\ cz (fst q) <= cz (snd q)) shapes boxes /\
    smallest cx (cx mins) (map fst boxes) /\ smallest cy (cy mins) (map fst boxes) /\ smallest cz (cz mins) (map fst boxes) /\
    greatest cx (cx maxes) (map snd boxes) /\ greatest cy (cy maxes) (map snd boxes) /\ greatest cz (cz maxes) (map snd boxes).
(** The part of space a picture is made of: the bounds if some are given, otherwise the
    smallest box around the components *)
Definition pictured (shapes : list shape) (bounds : option (corner * corner)) (mins maxes : corner) : Prop :=
  match bounds with
  | Some (lo, hi) => mins = lo /\ maxes = hi
  | None => around shapes mins maxes
  end.
(** Its width and height in a view *)
Definition sides (v : view_name) (mins maxes : corner) : R * R :=
  (cx maxes - cx mins, match v with XZ => cz maxes - cz mins | _ => cy maxes - cy mins end).
(** Neither side is zero, nor too short for a single pixel. *)
Definition showable (resolution : nat) (sides : R * R) : Prop :=
  0 < fst sides /\ 0 < snd sides /\
  fst sides <= INR resolution * snd sides /\ snd sides <= INR resolution * fst sides.

(** A point of the axes inside an extent (left, right, bottom, top) *)
Definition in_extent (extent : R * R * R * R) (p : R * R) : Prop :=
  let '(x0, x1, y0, y1) := extent in x0 < fst p < x1 /\ y0 < snd p < y1.

(** ** Renderers *)
(** What a program can do with a renderer: reset it, or call render at any time, with the
    scene and the camera as they are then, successfully or not *)
Inductive used (asort : list xr -> list nat) (gooch_of : surf -> gooch) : renderer -> renderer -> Prop :=
| used_not : forall r, used asort gooch_of r r
| used_reset : forall r r', used asort gooch_of r r' -> used asort gooch_of r (reset_renderer r')
| used_render : forall r r' h c fuel result r'', used asort gooch_of r r' ->
    render asort gooch_of h c fuel r' = RenderOk result r'' -> used asort gooch_of r r''
| used_raised : forall r r' h c fuel e r'', used asort gooch_of r r' ->
    render asort gooch_of h c fuel r' = RenderRaises e r'' -> used asort gooch_of r r''.
(** The picture of a scene: the outlines, or the shaded surfaces *)
Definition picture_of (asort : list xr -> list nat) (gooch_of : surf -> gooch) (kind : renderer_kind)
    (shapes : list shape) (c : camera) : option picture :=
  match kind with
  | EdgeKind => option_map (map (map Some)) (edge_image asort shapes c)
  | ShadedKind light => shaded_image asort gooch_of light shapes c
  end.
