(** * SpecRender: what the theorems about cameras and renderers say
    Specification only. *)
From Coq Require Import Reals List Bool ZArith.
Import ListNotations.
From Verif Require Import XR Arr Lin LinFacts Prim Csg Surf SpecGeom SpecOptics Tracer SpecTrace Render.
Open Scope R_scope.

(** The place of pixel (row [i], column [j]) of a camera at the world origin: the pixels
    fill the rectangle [width] x [height] of the yz plane, from its top left corner
    (greatest z, greatest y), edges included. *)
Definition pixel_place (width height : R) (columns rows i j : nat) : v4 :=
  V4 0 (width / 2 - INR j * (width / INR (columns - 1))) (height / 2 - INR i * (height / INR (rows - 1))) 1.

(** On this ray no component answers with something behind the ray's start only: each has
    a hit ahead, or no hit at all. *)
Definition nothing_behind (asort : list xr -> list nat) (shapes : list shape) (r : ray) : Prop :=
  forall s, In s shapes ->
    (exists t, In (Fin t) (fst (shape_intersect asort s r)) /\ 0 < t) \/
    (forall x, In x (fst (shape_intersect asort s r)) -> x = PInf \/ x = NaN).

(** The components list, on the whole line of the ray, a hit at [t] with this id, and no
    hit before it. *)
Definition on_line (asort : list xr -> list nat) (shapes : list shape) (r : ray) (t : R) (sid : Z) : Prop :=
  exists s, In s shapes /\ In (Fin t, sid) (combine (fst (shape_intersect asort s r)) (snd (shape_intersect asort s r))).
Definition lowest_on_line (asort : list xr -> list nat) (shapes : list shape) (r : ray) (t : R) (sid : Z) : Prop :=
  on_line asort shapes r t sid /\ forall t' sid', on_line asort shapes r t' sid' -> t <= t'.

(** A colour a screen can show *)
Definition in_unit (x : R) : Prop := 0 <= x <= 1.
Definition displayable (c : rgba) : Prop := in_unit (c_r c) /\ in_unit (c_g c) /\ in_unit (c_b c) /\ in_unit (c_a c).
Definition opaque (c : rgba) : Prop := c_a c = 1.
(** Weighted mean *)
Definition mixed (k : R) (a b : rgba) : rgba :=
  RGBA (k * c_r a + (1 - k) * c_r b) (k * c_g a + (1 - k) * c_g b) (k * c_b a + (1 - k) * c_b b) (k * c_a a + (1 - k) * c_a b).

(** ** Outlines *)
(** The id seen at a pixel of an image of [rows] x [columns]; outside the image it is -1, "nothing". *)
Definition id_at (rows columns : nat) (ids : list Z) (i j : Z) : Z :=
  if ((0 <=? i) && (i <? Z.of_nat rows) && (0 <=? j) && (j <? Z.of_nat columns))%Z%bool
  then nth (Z.to_nat i * columns + Z.to_nat j) ids (-1)%Z else (-1)%Z.
(** A pixel that differs from the one to its left or the one above it *)
Definition border (rows columns : nat) (ids : list Z) (i j : Z) : Prop :=
  (0 <= i < Z.of_nat rows)%Z /\ (0 <= j < Z.of_nat columns)%Z /\
  (id_at rows columns ids i j <> id_at rows columns ids i (j - 1) \/
   id_at rows columns ids i j <> id_at rows columns ids (i - 1) j).
(** Within [k] pixels of one *)
Definition near_border (k : nat) (rows columns : nat) (ids : list Z) (i j : nat) : Prop :=
  exists i' j', border rows columns ids i' j' /\
    (Z.abs (i' - Z.of_nat i) <= Z.of_nat k)%Z /\ (Z.abs (j' - Z.of_nat j) <= Z.of_nat k)%Z.
(** One pixel per 300 pixels of the longer side, but at least one *)
Definition line_width (rows columns k : nat) : Prop :=
  (1 <= k)%nat /\ (k = 1 \/ 300 * k <= Nat.max rows columns)%nat /\ (Nat.max rows columns < 300 * (k + 1))%nat.

(** ** Axes *)
(** Where imshow draws pixel (i, j) of an image of [rows] x [columns] that fills the extent
    (left, right, bottom, top): a rectangle of the axes *)
Definition in_pixel_cell (extent : R * R * R * R) (rows columns i j : nat) (x y : R) : Prop :=
  let '(x0, x1, y0, y1) := extent in
  x0 + INR j * ((x1 - x0) / INR columns) <= x <= x0 + INR (j + 1) * ((x1 - x0) / INR columns) /\
  y1 - INR (i + 1) * ((y1 - y0) / INR rows) <= y <= y1 - INR i * ((y1 - y0) / INR rows).

(** The surfaces a scene is made of *)
Definition parts (shapes : list shape) : list surf := flat_map surface_ids shapes.

(** What the components answer on the line of the ray are points with this property. *)
Definition hits_within (asort : list xr -> list nat) (shapes : list shape) (r : ray) (good : v4 -> Prop) : Prop :=
  forall s x, In s shapes -> In x (fst (shape_intersect asort s r)) ->
    x = PInf \/ x = NaN \/ exists t, x = Fin t /\ good (ray_at r t).
(** The pixel of this ray shows the first of all the surfaces on its line. *)
Definition shows_first_on_line (asort : list xr -> list nat) (shapes : list shape) (r : ray) : Prop :=
  (render_hit asort shapes r = (PInf, (-1)%Z) /\ forall t sid, ~ on_line asort shapes r t sid) \/
  (exists t sid, render_hit asort shapes r = (Fin t, sid) /\ lowest_on_line asort shapes r t sid).
