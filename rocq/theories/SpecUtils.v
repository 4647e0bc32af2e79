(** * SpecUtils: what the theorems about utils.py and the glasses say
    Specification only. *)
From Coq Require Import Reals List.
Import ListNotations.
From Verif Require Import XR Utils.
Open Scope R_scope.

(** Every channel between 0 and 1 *)
Definition displayable (c : rgb) : Prop :=
  0 <= red c <= 1 /\ 0 <= green c <= 1 /\ 0 <= blue c <= 1.
(** All three channels are continuous functions of the wavelength. *)
Definition continuous_colour (colour : R -> rgb) : Prop :=
  continuity (fun w => red (colour w)) /\ continuity (fun w => green (colour w)) /\
  continuity (fun w => blue (colour w)).
(** The colours between which the map interpolates: wavelength in um, colour *)
Definition anchors : list (R * rgb) :=
  [(44/100, RGB 0 0 1); (49/100, RGB 0 1 1); (51/100, RGB 0 1 0); (58/100, RGB 1 1 0); (645/1000, RGB 1 0 0)].
(** The colour a part [s] of the way from [a] to [b] *)
Definition mix (s : R) (a b : rgb) : rgb :=
  RGB ((1 - s) * red a + s * red b) ((1 - s) * green a + s * green b) ((1 - s) * blue a + s * blue b).

(** ** Paraxial optics *)
(** A 2x2 ray transfer matrix acts on (height, angle). *)
Record m2 : Type := M2 { mA : R; mB : R; mC : R; mD : R }.
Definition m2_mul (x y : m2) : m2 :=
  M2 (mA x * mA y + mB x * mC y) (mA x * mB y + mB x * mD y)
     (mC x * mA y + mD x * mC y) (mC x * mB y + mD x * mD y).
(** Going a distance, and crossing a surface of curvature [k] = 1/r from index n to m *)
Definition travel (d : R) : m2 := M2 1 d 0 1.
Definition cross (n m k : R) : m2 := M2 1 0 ((n - m) * k / m) (n / m).
(** A lens in air: first surface, glass, second surface *)
Definition lens_matrix (k1 k2 n d : R) : m2 := m2_mul (cross n 1 k2) (m2_mul (travel d) (cross 1 n k1)).
(** The curvature of a surface with radius [r]; a plane has radius +-inf *)
Definition curvature (r : xr) (k : R) : Prop :=
  match r with Fin x => x <> 0 /\ k = / x | PInf | MInf => k = 0 | NaN => False end.

(** ** Glasses *)
Definition visible (w : R) : Prop := 38/100 <= w <= 75/100.
