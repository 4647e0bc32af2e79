(** * Fl: the optics of a traced ray with rounding

    The code of operations.py and world_objects.py that changes the direction of a ray, with the
    result of every operation rounded by [rnd].  SIMPLIFICATION: no operation overflows; negation and
    multiplication by the 1 or -1 of [_normal_scale] are exact.  Sums of products (np.einsum,
    np.linalg.norm) are taken in any order, with or without fused multiply-add. *)
From Coq Require Import Reals List Bool Permutation.
Import ListNotations.
From Verif Require Import XR Lin.
Open Scope R_scope.

Section Fl.
  Variable rnd : R -> R.

  (** operations.py:80 [np.einsum], and the sum of squares in [np.linalg.norm(..., axis=0)] *)
  Inductive rdot : list (R * R) -> R -> Prop :=
  | Rdot_mul : forall a b, rdot [(a, b)] (rnd (a * b))
  | Rdot_add : forall l1 l2 l x y, Permutation l (l1 ++ l2) -> rdot l1 x -> rdot l2 y -> rdot l (rnd (x + y))
  | Rdot_fma : forall l l' a b x, Permutation l ((a, b) :: l') -> rdot l' x -> rdot l (rnd (a * b + x)).
  Definition coords (v : v4) : list R := [vx v; vy v; vz v; vw v].
  Definition pairs (v w : v4) : list (R * R) := combine (coords v) (coords w).

  (** An elementwise operation: every entry of the result is rounded *)
  Definition vround (v : v4) : v4 := V4 (rnd (vx v)) (rnd (vy v)) (rnd (vz v)) (rnd (vw v)).

  (** [v / np.linalg.norm(v, axis=0)]: world_objects.py:415, operations.py:125 and 157, _pyrayt.py:178 *)
  Definition fl_norm (v : v4) (s : R) : Prop := exists q, rdot (pairs v v) q /\ s = rnd (sqrt q).
  Definition fl_normalize (v d : v4) : Prop := exists s, fl_norm v s /\ d = vround (vscale (/ s) v).

  (** world_objects.py:411-418: the product of the matrix and the object's normal, with its last entry
      cleared, is [raw]; it is normalised and multiplied by [_normal_scale] *)
  Definition fl_normal (raw n : v4) : Prop := exists m s, fl_normalize raw m /\ (s = 1 \/ s = -1) /\ n = vscale s m.

  (** operations.py:105-107 [reflect]: vectors - 2 * normals * dots *)
  Definition fl_reflect (v n d : v4) : Prop :=
    exists x, rdot (pairs v n) x /\ d = vround (vsub v (vround (vscale x (vround (vscale 2 n))))).

  (** operations.py:110-162 [refract] *)
  Definition fl_refract (v n : v4) (n1 n2 n_global : R) (d : v4) (index : R) : Prop :=
    exists v1 cos_p cos_n,
    fl_normalize v v1 /\                                   (* line 125 *)
    rdot (pairs v1 n) cos_p /\                             (* 126-128 *)
    rdot (pairs v1 (vopp n)) cos_n /\                      (* 129-131 *)
    let exiting := rltb 0 cos_p in
    let n2_local := if exiting then n_global else n2 in    (* 134 *)
    let nn := if exiting then vopp n else n in             (* 135-137 *)
    let r := rnd (n1 / n2_local) in                        (* 138 *)
    let cos1 := if exiting then cos_p else cos_n in        (* 141 *)
    let radicand := rnd (1 - rnd (rnd (r * r) * rnd (1 - rnd (cos1 * cos1)))) in  (* 144-146 *)
    let cos2 := rnd (sqrt (Rmax 0 radicand)) in            (* 147-149 *)
    let refracted :=
      if rltb 0 radicand
      then vround (vadd (vround (vscale r v1)) (vround (vscale (rnd (rnd (r * cos1) - cos2)) nn)))
      else vround (vadd v1 (vround (vscale (rnd (2 * cos1)) nn))) in              (* 152-156 *)
    fl_normalize refracted d /\                            (* line 157 *)
    index = if rltb 0 radicand then n2_local else n1.      (* 159-162 *)
End Fl.
