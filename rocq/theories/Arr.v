(** * Arr: sorting, gathering, rolling and cumulative sums of one array column *)
From Coq Require Import List Bool ZArith Permutation Sorted.
Import ListNotations.

Section Arr.
  Context {A : Type}.
  Variable leb : A -> A -> bool.

  (** [np.sort(..., axis=0)] of one column.  Insertion sort: numpy's algorithm
      is different, but sorting with a total antisymmetric order has only one
      result. *)
  Fixpoint insert_by (x : A) (l : list A) : list A :=
    match l with
    | [] => [x]
    | y :: r => if leb x y then x :: l else y :: insert_by x r
    end.

  Fixpoint sort_by (l : list A) : list A :=
    match l with
    | [] => []
    | x :: r => insert_by x (sort_by r)
    end.

  (** [a[p]] (fancy indexing of one column). [d] is never used for indices in
      range. *)
  Definition gather (d : A) (l : list A) (p : list nat) : list A :=
    map (fun i => nth i l d) p.

  (** One executable [np.argsort]: stable insertion sort of the indices.  numpy's
      default quicksort is not stable, so theorems do not use this function; they
      quantify over every function satisfying [argsort_spec] below. *)
  Fixpoint insert_idx (d : A) (l : list A) (i : nat) (p : list nat) : list nat :=
    match p with
    | [] => [i]
    | j :: r => if leb (nth i l d) (nth j l d) then i :: p else j :: insert_idx d l i r
    end.

  Definition argsort_stable (d : A) (l : list A) : list nat :=
    fold_right (insert_idx d l) [] (seq 0 (length l)).

  (** What [np.argsort] promises: a permutation of the indices that sorts. *)
  Definition argsort_spec (d : A) (asort : list A -> list nat) : Prop :=
    forall l,
      Permutation (asort l) (seq 0 (length l)) /\
      StronglySorted (fun a b => leb a b = true) (gather d l (asort l)).
End Arr.

(** [np.roll(x, 1, axis=0)] of one column. *)
Definition roll1 {B : Type} (l : list B) : list B :=
  match rev l with
  | [] => []
  | x :: r => x :: rev r
  end.

(** [np.cumsum(x, axis=0)] of one column. *)
Fixpoint cumsum_from (acc : Z) (l : list Z) : list Z :=
  match l with
  | [] => []
  | x :: r => (acc + x)%Z :: cumsum_from (acc + x)%Z r
  end.
Definition cumsum (l : list Z) : list Z := cumsum_from 0%Z l.

(** [np.where(mask, x, fill)] of one column. *)
Definition where_fill {B : Type} (mask : list bool) (l : list B) (fill : B) : list B :=
  map (fun p : bool * B => if fst p then snd p else fill) (combine mask l).
