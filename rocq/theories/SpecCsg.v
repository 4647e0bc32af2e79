(** * SpecCsg: what a hit array means
    Specification only; uses nothing from the model but the names of the three
    boolean operations. *)
From Coq Require Import List Bool.
Import ListNotations.
From Verif Require Import Csg.

Section Spec.
  Context {A : Type}.
  Variable leb : A -> A -> bool.

  (** [x] lies strictly before [t] *)
  Definition before (x t : A) : bool := negb (leb t x).

  (** How many entries of [l] lie strictly before [t]. *)
  Definition below (t : A) (l : list A) : nat :=
    length (filter (fun x => before x t) l).

  (** A hit array is read as enter, exit, enter, exit, ...: one is inside just
      before [t] iff an odd number of hits lies before [t]. *)
  Definition inside_at (t : A) (l : list A) : bool := Nat.odd (below t l).

  Definition total_order : Prop :=
    (forall a b, leb a b = true \/ leb b a = true) /\
    (forall a b c, leb a b = true -> leb b c = true -> leb a c = true) /\
    (forall a b, leb a b = true -> leb b a = true -> a = b).

  Definition ascending (l : list A) : Prop :=
    forall i j d, i <= j -> j < length l -> leb (nth i l d) (nth j l d) = true.
End Spec.

(** The boolean function each operation stands for. *)
Definition bool_op (op : operation) (a b : bool) : bool :=
  match op with
  | UNION => a || b
  | INTERSECT => a && b
  | DIFFERENCE => a && negb b
  end.
