(** * SpecArray: the numbers of a row of the frame, and placed sources
    Specification only. *)
From Coq Require Import Reals List ZArith.
Import ListNotations.
From Verif Require Import XR Lin LinFacts World Tracer Sources SpecSources Batch RaySet BatchSources.
Open Scope R_scope.

(** a row of the frame, in the order of its columns: generation, intensity, wavelength, index,
    id, surface, x0, y0, z0, x1, y1, z1, x_tilt, y_tilt, z_tilt *)
Definition row_numbers (w : Tracer.row) : list xr :=
  map Fin [INR (row_gen w); row_int w; row_wl w; row_idx w; INR (row_id w); IZR (row_surf w);
           vx (row_start w); vy (row_start w); vz (row_start w);
           vx (row_end w); vy (row_end w); vz (row_end w);
           vx (row_tilt w); vy (row_tilt w); vz (row_tilt w)].

(** the 13 numbers of one ray, in the order of the rows of a RaySet *)
Definition numbers (c : col) : list R :=
  let o := origin (c_ray c) in let d := direction (c_ray c) in
  [vx o; vy o; vz o; vw o; vx d; vy d; vz d; vw d;
   INR (c_gen c); c_int c; c_wl c; c_idx c; INR (c_id c)].
Definition floats (c : col) : list xr := map Fin (numbers c).

(** A source of some kind and wavelength, standing at [p_world], and the state of the random
    number generator when it is asked for rays *)
Record placed : Type := Placed { p_kind : source; p_wl : R; p_world : mat; p_draw : nat }.
(** the array it returns *)
Definition placed_array (rnd : nat -> R) (x : placed) (n : nat) : option (arr R) :=
  batch_generate rnd (p_kind x) (p_wl x) (p_world x) (p_draw x) n.
(** Its world transform is an invertible affine map, and all its rays have a direction. *)
Definition placed_ok (rnd : nat -> R) (n : nat) (x : placed) : Prop :=
  affine (p_world x) /\ (exists i, is_inverse (p_world x) i) /\
  exists rays, emits rnd (p_kind x) (p_wl x) mid (p_draw x) n rays.
