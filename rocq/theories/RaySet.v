(** * RaySet: the 13 x n array behind pyrayt.RaySet, and the 2-D shapes' array helper

    Tracer.v and Sources.v treat a RaySet as a list of columns.  This file follows the array
    itself (_pyrayt.py:13-144). *)
From Coq Require Import Reals List Bool ZArith Arith.
Import ListNotations.
From Verif Require Import XR Arr Lin Ops Prim Csg Surf World Tracer Batch.
Open Scope R_scope.

(** What a user can name: the eight coordinates [rays[k, axis]] and the five metadata
    fields of _pyrayt.py:15. *)
Inductive field : Type :=
| Coord (k axis : nat)
| Generation | Intensity | Wavelength | Index | Id.

(** The right hand side of an assignment: a number, or a one dimensional array *)
Inductive value : Type :=
| Scalar (x : R)
| Values (len : nat) (xs : nat -> R).

(** numpy broadcasting of a value to a row of width [n]; [None]: ValueError *)
Definition broadcast (n : nat) (v : value) : option (nat -> R) :=
  match v with
  | Scalar x => Some (fun _ => x)
  | Values len xs => if (len =? n)%nat then Some xs
                     else if (len =? 1)%nat then Some (fun _ => xs 0%nat) else None
  end.

(** _pyrayt.py:64 [metadata = self[8:]] and its rows, lines 92-144 *)
Definition metadata {A} (rs : arr A) : arr A := bottom_rows 8 rs.
Definition meta_row (f : field) : nat :=
  match f with
  | Coord _ _ => 0 | Generation => 0 | Intensity => 1 | Wavelength => 2 | Index => 3 | Id => 4
  end%nat.
(** [self.metadata[i] = row] writes through the view [self[8:]] *)
Definition set_metadata_row {A} (i : nat) (r : nat -> A) (rs : arr A) : arr A :=
  Arr (width rs) (firstn 8 (rows rs) ++ replace_nth i r (skipn 8 (rows rs))).
(** _pyrayt.py:67-69 [self[8:] = update] *)
Definition set_metadata (u rs : arr R) : arr R :=
  Arr (width rs) (firstn 8 (rows rs) ++ rows u).

(** _pyrayt.py:71-80 [rays]: [self[:8].reshape((2, 4, -1))], a view.  Element [k, axis, j]
    has the flat position [(4 k + axis) n + j] among the elements of [self[:8]]. *)
Definition view_item {A} (d : A) (rs : arr A) (k axis j : nat) : A :=
  let n := width rs in
  let p := ((4 * k + axis) * n + j)%nat in
  row d (top_rows 8 rs) (p / n) (p mod n).
Definition ray_item : arr R -> nat -> nat -> nat -> R := view_item 0.
(** [self.rays[k, axis] = row] writes those elements: element (i, j) of [self] has the flat
    position [i n + j], and is [k, axis, j'] of the view when [i n + j = (4 k + axis) n + j']. *)
Definition set_ray_row {A} (k axis : nat) (r : nat -> A) (rs : arr A) : arr A :=
  let n := width rs in
  Arr n (map (fun q : nat * (nat -> A) => fun j =>
                let p := (fst q * n + j)%nat in
                let lo := ((4 * k + axis) * n)%nat in
                if ((lo <=? p) && (p <? lo + n) && (fst q <? 8))%bool then r (p - lo)%nat else snd q j)
             (combine (seq 0 (length (rows rs))) (rows rs))).
(** _pyrayt.py:82-84 [self[:8] = update.reshape(8, -1)]; [u k axis] is row [k, axis] of the
    2 x 4 x n update, element [i, j] of the reshaped array is [u (i / 4) (i mod 4) j] *)
Definition set_rays (u : nat -> nat -> nat -> R) (rs : arr R) : arr R :=
  Arr (width rs) (map (fun i => u (i / 4) (i mod 4))%nat (seq 0 8) ++ skipn 8 (rows rs)).

(** reading a field: lines 71-144 *)
Definition get (rs : arr R) (f : field) (j : nat) : R :=
  match f with
  | Coord k axis => ray_item rs k axis j
  | f => row 0 (metadata rs) (meta_row f) j
  end.

(** writing a field: lines 71-144.  [None]: the shapes do not match (ValueError). *)
Definition set (f : field) (v : value) (rs : arr R) : option (arr R) :=
  match broadcast (width rs) v with
  | None => None
  | Some r => Some match f with
                   | Coord k axis => set_ray_row k axis r rs
                   | f => set_metadata_row (meta_row f) r rs
                   end
  end.

(** primitives.py:18-28 [bundle_of_rays(n)]: zeros, with the homogeneous coordinate of the
    origins set to 1 *)
Definition bundle (k axis j : nat) : R :=
  match k, axis with O, 3%nat => 1 | _, _ => 0 end.

Definition bind {A B} (o : option A) (f : A -> option B) : option B :=
  match o with Some x => f x | None => None end.

(** _pyrayt.py:20-43 [RaySet(n)] *)
Definition new_set (n : nat) : option (arr R) :=
  let rs := full 13 n 0 in
  let rs := set_rays bundle rs in
  bind (set Wavelength (Scalar (633 / 1000)) rs) (fun rs =>
  bind (set Index (Scalar 1) rs) (fun rs =>
  bind (set Generation (Scalar 0) rs) (fun rs =>
  bind (set Intensity (Scalar 100) rs) (fun rs =>
  set Id (Values n INR) rs)))).

(** [rs[..., mask]] *)
Definition mask_cols {A} (mask : nat -> bool) (rs : arr A) : arr A :=
  Arr (length (picked (width rs) mask)) (map (select (width rs) mask) (rows rs)).

(** _pyrayt.py:355-366 [_st_initialize]: np.hstack of the sources' sets (None for the
    ValueError of an empty list), then the ids are numbered again *)
Definition join_sets (sets : list (arr R)) : option (arr R) :=
  match sets with
  | [] => None
  | s :: r => let rs := fold_left hstack r s in set Id (Values (width rs) INR) rs
  end.

(** primitives.py:605-619 [overlap] on one dimensional arrays.  [None]: np.min of an empty
    array (ValueError). *)
Definition overlap (a b : list R) : option (list R * list R) :=
  match a, b with
  | [], _ | _, [] => None
  | _, _ =>
      let min_of_max := list_min [list_max a; list_max b] in
      let max_of_min := list_max [list_min a; list_min b] in
      let inside := fun x => (rleb max_of_min x && rleb x min_of_max)%bool in
      Some (filter inside a, filter inside b)
  end.
