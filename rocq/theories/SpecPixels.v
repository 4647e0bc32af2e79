(** * SpecPixels: which surface a pixel of a picture shows
    Specification only.  It speaks of the two columns a component answers a ray with: the
    hits, in multiples of the ray's direction, and the ids of the surfaces hit. *)
From Coq Require Import Reals List Bool ZArith.
Import ListNotations.
From Verif Require Import XR Arr Lin Prim Csg Surf Tracer Render.
Open Scope R_scope.

(** A hit after the start of the ray *)
Definition lies_ahead (x : xr) : Prop := exists t, x = Fin t /\ 0 < t.
(** A hit anywhere on the line of the ray; an unbounded component may begin at minus infinity *)
Definition lies_on_line (x : xr) : Prop := x = MInf \/ exists t, x = Fin t.

(** [x] comes before [y] on the line *)
Definition before (x y : xr) : Prop :=
  match x, y with
  | MInf, Fin _ => True
  | Fin a, Fin b => a < b
  | _, _ => False
  end.

(** Of the rows whose hit is [P], the one with the least hit; the first, if several *)
Definition least_row (P : xr -> Prop) (hits : list xr) (ids : list Z) (x : xr) (sid : Z) : Prop :=
  exists k, nth_error hits k = Some x /\ nth_error ids k = Some sid /\ P x /\
  forall j y, nth_error hits j = Some y -> P y -> before x y \/ (x = y /\ (k <= j)%nat).

Section Offers.
  Variable asort : list xr -> list nat.
  (** What a component offers to a pixel: its nearest hit ahead of the camera; a component
      with no hit ahead offers its farthest hit behind. *)
  Definition offers (s : shape) (r : ray) (x : xr) (sid : Z) : Prop :=
    let '(hits, ids) := shape_intersect asort s r in
    least_row lies_ahead hits ids x sid \/
    ((forall y, In y hits -> ~ lies_ahead y) /\ least_row lies_on_line hits ids x sid).
  (** A component that meets the line of the ray, but only behind the camera *)
  Definition wholly_behind (s : shape) (r : ray) : Prop :=
    (exists x, In x (fst (shape_intersect asort s r)) /\ lies_on_line x) /\
    forall x, In x (fst (shape_intersect asort s r)) -> ~ lies_ahead x.
  (** The pixel shows the component with the least offer, the first listed if several; no
      offer, no surface. *)
  Definition pixel_rule (shapes : list shape) (r : ray) (pixel : xr * Z) : Prop :=
    (pixel = (PInf, (-1)%Z) /\ forall s x sid, In s shapes -> ~ offers s r x sid) \/
    (exists i s x sid, nth_error shapes i = Some s /\ offers s r x sid /\ pixel = (x, sid) /\
       forall j s' y sid', nth_error shapes j = Some s' -> offers s' r y sid' ->
         before x y \/ (x = y /\ (i <= j)%nat)).
End Offers.
