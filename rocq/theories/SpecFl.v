(** * SpecFl: rounding, and the directions of a ray through any number of interactions
    Specification only. *)
From Coq Require Import Reals List Bool ZArith.
From Flocq Require Import Core.
Import ListNotations.
From Verif Require Import XR Lin Fl Rounded SpecRounded.
Open Scope R_scope.

(** Every result is right up to a relative error [u] and an absolute error [eta] (underflow) *)
Definition rounds_within (u eta : R) (rnd : R -> R) : Prop := forall x, Rabs (rnd x - x) <= u * Rabs x + eta.
(** IEEE binary64, rounding to nearest, ties to even *)
Definition binary64 : R -> R := round radix2 (FLT_exp (-1074) 53) ZnearestE.

(** A vector, not zero, whose squares do not underflow *)
Definition sizeable (u eta : R) (v : v4) : Prop := 0 < vdot v v /\ eta <= u * vdot v v.

(** The directions of a ray after [g] interactions with mirrors and glasses, of whatever normals.
    The indices of the two sides of a glass differ by at most a factor of 4. *)
Inductive journey (rnd : R -> R) (u eta : R) : nat -> v4 -> Prop :=
| J_start : forall d, Rabs (vnorm d - 1) <= 512 * u -> journey rnd u eta 0 d
| J_mirror : forall g v raw n d, journey rnd u eta g v -> sizeable u eta raw -> fl_normal rnd raw n ->
    fl_reflect rnd v n d -> journey rnd u eta (S g) d
| J_glass : forall g v raw n n1 n2 n_global d index, journey rnd u eta g v -> sizeable u eta raw -> fl_normal rnd raw n ->
    0 < n1 -> 0 < n2 -> 0 < n_global -> n1 <= 4 * n2 -> n1 <= 4 * n_global ->
    fl_refract rnd v n n1 n2 n_global d index -> journey rnd u eta (S g) d.

(** ** Rounded optics in the tracer of Rounded.v *)
Section Optical.
  Variable rnd : R -> R.
  Variables u eta : R.
  Variable K : kernels.
  Variable O : one_ray K.
  (** The direction of a ray *)
  Variable dir : beam K -> v4.
  Definition is_mirror (s : surface K) : Prop := exists f, o_trace K O s = Some f /\ forall b wl n,
    exists raw nrm, sizeable u eta raw /\ fl_normal rnd raw nrm /\ fl_reflect rnd (dir b) nrm (dir (fst (f (b, wl, n)))).
  Definition is_glass (s : surface K) : Prop := exists f, o_trace K O s = Some f /\ forall b wl n,
    exists raw nrm n1 n2 n_global index, sizeable u eta raw /\ fl_normal rnd raw nrm /\
    0 < n1 /\ 0 < n2 /\ 0 < n_global /\ n1 <= 4 * n2 /\ n1 <= 4 * n_global /\ fl_refract rnd (dir b) nrm n1 n2 n_global (dir (fst (f (b, wl, n)))) index.
  (** Moving a ray does not touch its direction; a ray counts as absorbed if the computed length of
      its direction is close to 0 *)
  Definition optical : Prop :=
    (forall t b, dir (o_advance K O (t, b)) = dir b) /\ (forall b, dir (o_offset K O b) = dir b) /\
    (forall b, o_absorbed K O b = true -> exists s, fl_norm rnd (dir b) s /\ isclose s 0 = true).
  (** The ray after [k] generations *)
  Fixpoint after (table : list (Z * surface K)) (k : nat) (c : ncol K) : option (ncol K) :=
    match k with
    | 0%nat => Some c
    | S k => match met K O (o_hit K O (n_beam c)) table c with
             | None => None
             | Some c' => after table k (set_beam K (o_offset K O (n_beam c')) (set_generation K (S (n_gen c)) c'))
             end
    end.
End Optical.
