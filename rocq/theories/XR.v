(** * XR: the values a numpy float64 can take, with exact arithmetic

    Floats are modelled as real numbers extended with +inf, -inf and nan.
    SIMPLIFICATION: no rounding, no overflow, no signed zero.
    The rules for infinities, nan, comparisons and sort order are numpy's. *)
From Coq Require Import Reals List Bool.
Import ListNotations.
Open Scope R_scope.

(** A float64 value (used everywhere in /repo/tinygfx/g3d and /repo/pyrayt). *)
Inductive xr : Type :=
| Fin (r : R)
| PInf
| MInf
| NaN.

(** Real comparisons as booleans. *)
Definition rltb (a b : R) : bool := if Rlt_dec a b then true else false.
Definition rleb (a b : R) : bool := if Rle_dec a b then true else false.
Definition reqb (a b : R) : bool := if Req_EM_T a b then true else false.

(** [a < b] on floats: false as soon as one side is nan. *)
Definition xltb (a b : xr) : bool :=
  match a, b with
  | NaN, _ | _, NaN => false
  | Fin x, Fin y => rltb x y
  | MInf, MInf => false
  | MInf, _ => true
  | _, MInf => false
  | PInf, _ => false
  | _, PInf => true
  end.

(** [a <= b] on floats. *)
Definition xleb (a b : xr) : bool :=
  match a, b with
  | NaN, _ | _, NaN => false
  | Fin x, Fin y => rleb x y
  | MInf, _ => true
  | _, MInf => false
  | _, PInf => true
  | PInf, _ => false
  end.

(** The order used by [np.sort] / [np.argsort]: as [<=], with nan last. *)
Definition xsle (a b : xr) : bool :=
  match a, b with
  | _, NaN => true
  | NaN, _ => false
  | _, _ => xleb a b
  end.

(** [np.isfinite]. *)
Definition xfinite (a : xr) : bool :=
  match a with Fin _ => true | _ => false end.

Definition xopp (a : xr) : xr :=
  match a with Fin x => Fin (- x) | PInf => MInf | MInf => PInf | NaN => NaN end.

Definition xadd (a b : xr) : xr :=
  match a, b with
  | NaN, _ | _, NaN => NaN
  | Fin x, Fin y => Fin (x + y)
  | PInf, MInf | MInf, PInf => NaN
  | PInf, _ | _, PInf => PInf
  | MInf, _ | _, MInf => MInf
  end.

Definition xsub (a b : xr) : xr := xadd a (xopp b).

(** The infinity with the sign of [x]; nan for 0 (inf * 0). *)
Definition inf_sign (x : R) : xr :=
  if Rlt_dec 0 x then PInf else if Rlt_dec x 0 then MInf else NaN.

Definition xmul (a b : xr) : xr :=
  match a, b with
  | NaN, _ | _, NaN => NaN
  | Fin x, Fin y => Fin (x * y)
  | Fin x, PInf | PInf, Fin x => inf_sign x
  | Fin x, MInf | MInf, Fin x => inf_sign (- x)
  | PInf, PInf | MInf, MInf => PInf
  | PInf, MInf | MInf, PInf => MInf
  end.

(** Division.  [x / 0] is +-inf with the sign of [x] (zeros are positive), and
    [0 / 0] is nan. *)
Definition xdiv (a b : xr) : xr :=
  match a, b with
  | NaN, _ | _, NaN => NaN
  | Fin x, Fin y => if Req_EM_T y 0 then inf_sign x else Fin (x / y)
  | Fin _, _ => Fin 0
  | PInf, Fin y => if Req_EM_T y 0 then PInf else inf_sign y
  | MInf, Fin y => if Req_EM_T y 0 then MInf else inf_sign (- y)
  | _, _ => NaN
  end.

(** [np.maximum] / [np.minimum] / [np.max] / [np.min]: nan propagates. *)
Definition xmax (a b : xr) : xr :=
  match a, b with
  | NaN, _ | _, NaN => NaN
  | _, _ => if xleb a b then b else a
  end.

Definition xmin (a b : xr) : xr :=
  match a, b with
  | NaN, _ | _, NaN => NaN
  | _, _ => if xleb a b then a else b
  end.

(** [np.sqrt] *)
Definition xsqrt (a : xr) : xr :=
  match a with
  | Fin x => if Rle_dec 0 x then Fin (sqrt x) else NaN
  | PInf => PInf
  | _ => NaN
  end.

(** [np.isclose(x, b)] with the default tolerances rtol = 1e-5, atol = 1e-8,
    on finite values: |x - b| <= atol + rtol * |b|. *)
Definition atol : R := / 100000000.
Definition rtol : R := / 100000.
Definition isclose (x b : R) : bool := rleb (Rabs (x - b)) (atol + rtol * Rabs b).

(** A boolean added to a float ([directions[axis] + is_zero]). *)
Definition b2r (b : bool) : R := if b then 1 else 0.

(** [np.sort] of a column of two values. *)
Definition sort2 (p : xr * xr) : xr * xr :=
  if xsle (fst p) (snd p) then p else (snd p, fst p).
