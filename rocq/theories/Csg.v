(** * Csg: boolean combination of hit arrays
    Model of /repo/tinygfx/g3d/csg.py. *)
From Coq Require Import List Bool ZArith.
Import ListNotations.
From Verif Require Import Arr.

(** csg.py:7-10 [class Operation(Enum)] *)
Inductive operation : Type := UNION | INTERSECT | DIFFERENCE.

Section ArrayCsg.
  Context {A : Type}.
  Variable leb : A -> A -> bool.       (* the order used by np.sort *)
  Variable top : A.                    (* np.inf *)
  Variable asort : list A -> list nat. (* np.argsort of one column *)

  (** csg.py:39-41 and 43-47 [merged_mask] *)
  Definition csg_mask (op : operation) (n1 : nat) (i : nat) : Z :=
    match op with
    | UNION | INTERSECT => if Nat.odd i then (-1)%Z else 1%Z
    | DIFFERENCE => if xorb (Nat.odd i) (Nat.leb n1 i) then (-1)%Z else 1%Z
    end.

  (** csg.py:41,47 [surface_count] *)
  Definition csg_count (op : operation) (n1 : nat) (p : list nat) : list Z :=
    let c := cumsum (map (csg_mask op n1) p) in
    match op with
    | DIFFERENCE => map (fun z => (z + 1)%Z) c
    | _ => c
    end.

  (** csg.py:51-59, the mask of the kept hits *)
  Definition csg_keep (op : operation) (n1 : nat) (p : list nat) : list bool :=
    let c := csg_count op n1 p in
    match op with
    | UNION =>
        let nz := map (fun z => negb (Z.eqb z 0)) c in
        map (fun q : bool * bool => xorb (fst q) (snd q)) (combine nz (roll1 nz))
    | INTERSECT | DIFFERENCE =>
        let is_two := map (fun z => Z.eqb z 2) c in
        map (fun q : bool * bool => orb (fst q) (snd q)) (combine is_two (roll1 is_two))
    end.

  (** csg.py:13-61 [array_csg] on one column, [sort_output=False] *)
  Definition array_csg_unsorted (l1 l2 : list A) (op : operation) : list A :=
    let merged := l1 ++ l2 in
    let p := asort merged in
    where_fill (csg_keep op (length l1) p) (gather top merged p) top.

  (** csg.py:13-61 [array_csg] on one column, [sort_output=True] *)
  Definition array_csg (l1 l2 : list A) (op : operation) : list A :=
    sort_by leb (array_csg_unsorted l1 l2 op).

  (** csg.py:13-61 with an arbitrary third argument: [None] stands for a value
      that is not a member of the enum, which raises ValueError (csg.py:48-49). *)
  Definition array_csg_call (l1 l2 : list A) (op : option operation) : option (list A) :=
    match op with
    | Some o => Some (array_csg l1 l2 o)
    | None => None
    end.

  (** csg.py:136-148: the part of [CSGSurface.intersect] that combines the
      children's columns for a ray that passed the bounding box test.  Hits and
      surface ids are separate arrays, as in the code. *)
  Definition csg_combine (op : operation)
      (l_hits : list A) (l_surf : list Z) (r_hits : list A) (r_surf : list Z)
      : list A * list Z :=
    let csg_surfaces := l_surf ++ r_surf in
    let surface_sort_mask := asort (l_hits ++ r_hits) in
    let csg_surfaces := gather (-1)%Z csg_surfaces surface_sort_mask in
    let csg_hits := array_csg_unsorted l_hits r_hits op in
    let hit_argsort := asort csg_hits in
    (gather top csg_hits hit_argsort, gather (-1)%Z csg_surfaces hit_argsort).
End ArrayCsg.
