(** * SpecChroma: rows of two rays that go the same way *)
From Coq Require Import Reals List.
From Verif Require Import XR Lin Surf Tracer.

(** Everything a row says about the path: generation, index, surface, ends and tilt *)
Definition same_leg (w w' : row) : Prop :=
  row_gen w = row_gen w' /\ row_idx w = row_idx w' /\ row_surf w = row_surf w' /\
  row_start w = row_start w' /\ row_end w = row_end w' /\ row_tilt w = row_tilt w'.
(** The glass of the surface cannot tell the two wavelengths apart. *)
Definition colour_blind (wl wl' : R) (s : surf) : Prop :=
  match s_mat s with Refractor index_at => index_at wl = index_at wl' | _ => True end.
