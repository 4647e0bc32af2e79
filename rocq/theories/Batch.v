(** * Batch: the array code of primitives.py, world_objects.py, csg.py and _st_propagate

    Prim.v, Surf.v and Tracer.v follow one ray.  The code handles all rays together, in
    arrays with one column per ray that it stacks, sorts, reshapes, masks and indexes.
    This file follows those array operations. *)
From Coq Require Import Reals List Bool ZArith Arith.
Import ListNotations.
From Verif Require Import XR Arr Lin Ops Prim Csg Surf World Tracer.
Open Scope R_scope.

(** ** Two dimensional arrays *)
(** A 2-D numpy array: its width (shape[-1]) and its rows, each a function of the column.
    Columns from [width] on do not exist; nothing below reads them on valid input. *)
Record arr (A : Type) : Type := Arr { width : nat; rows : list (nat -> A) }.
Arguments Arr {A}. Arguments width {A}. Arguments rows {A}.

Definition column {A} (a : arr A) (j : nat) : list A := map (fun r => r j) (rows a).
(** [a[i]] *)
Definition row {A} (d : A) (a : arr A) (i : nat) : nat -> A := nth i (rows a) (fun _ => d).
(** [np.vstack((a, b))] *)
Definition vstack {A} (a b : arr A) : arr A := Arr (width a) (rows a ++ rows b).
(** [np.hstack((a, b))] for arrays with as many rows *)
Definition hstack {A} (a b : arr A) : arr A :=
  Arr (width a + width b)
      (map (fun p : (nat -> A) * (nat -> A) => fun j =>
              if j <? width a then fst p j else snd p (j - width a)%nat)
           (combine (rows a) (rows b))).
(** An operation with [axis=0] that keeps the shape, such as sort, argsort or cumsum:
    [f] handles one column. *)
Definition axis0 {A B} (d : B) (f : list A -> list B) (a : arr A) : arr B :=
  Arr (width a) (map (fun i => fun j => nth i (f (column a j)) d) (seq 0 (length (rows a)))).
(** [np.sort(a, axis=0)] and [a.sort(axis=0)] *)
Definition sort0 (a : arr xr) : arr xr := axis0 PInf (sort_by xsle) a.
(** [a.reshape(k, -1)]: the same elements in row-major order *)
Definition reshape {A} (d : A) (k : nat) (a : arr A) : arr A :=
  let w := (length (rows a) * width a / k)%nat in
  Arr w (map (fun i => fun j => let p := (i * w + j)%nat in
                                row d a (p / width a) (p mod width a)) (seq 0 k)).
(** [a[:k]] and [a[k:]] *)
Definition top_rows {A} (k : nat) (a : arr A) : arr A := Arr (width a) (firstn k (rows a)).
Definition bottom_rows {A} (k : nat) (a : arr A) : arr A := Arr (width a) (skipn k (rows a)).
(** [np.max(a, axis=0)] and [np.min(a, axis=0)] *)
Definition fold1 (f : xr -> xr -> xr) (l : list xr) : xr :=
  match l with [] => NaN | x :: r => fold_left f r x end.
Definition max0 (a : arr xr) : nat -> xr := fun j => fold1 xmax (column a j).
Definition min0 (a : arr xr) : nat -> xr := fun j => fold1 xmin (column a j).
(** [np.where(cond, a, b)] where cond has one row *)
Definition where_row {A} (cond : nat -> bool) (a b : arr A) : arr A :=
  Arr (width a) (map (fun p : (nat -> A) * (nat -> A) => fun j =>
                        if cond j then fst p j else snd p j) (combine (rows a) (rows b))).
(** [np.where(cond, a, x)], [np.where(cond, x, a)] with a scalar [x] *)
Definition where_else {A} (cond : nat -> bool) (a : arr A) (x : A) : arr A :=
  Arr (width a) (map (fun (r : nat -> A) (j : nat) => if cond j then r j else x) (rows a)).
Definition where_then {A} (cond : nat -> bool) (x : A) (a : arr A) : arr A :=
  Arr (width a) (map (fun (r : nat -> A) (j : nat) => if cond j then x else r j) (rows a)).
(** [a[i] = r] *)
Fixpoint replace_nth {A} (i : nat) (x : A) (l : list A) : list A :=
  match l, i with
  | [], _ => []
  | _ :: r, O => x :: r
  | y :: r, S i => y :: replace_nth i x r
  end.
Definition set_row {A} (i : nat) (r : nat -> A) (a : arr A) : arr A :=
  Arr (width a) (replace_nth i r (rows a)).
(** [a[i, lo:hi] = r] *)
Definition set_row_slice {A} (d : A) (i lo hi : nat) (r : nat -> A) (a : arr A) : arr A :=
  set_row i (fun j => if ((lo <=? j) && (j <? hi))%bool then r (j - lo)%nat else row d a i j) a.
(** [np.full((k, n), x)]; also np.empty and np.zeros *)
Definition full {A} (k n : nat) (x : A) : arr A := Arr n (repeat (fun _ => x) k).
(** Element by element *)
Definition amap {A B} (f : A -> B) (a : arr A) : arr B :=
  Arr (width a) (map (fun (r : nat -> A) (j : nat) => f (r j)) (rows a)).
Definition amap2 {A B C} (f : A -> B -> C) (a : arr A) (b : arr B) : arr C :=
  Arr (width a) (map (fun p : (nat -> A) * (nat -> B) => fun j => f (fst p j) (snd p j))
                     (combine (rows a) (rows b))).
(** [np.roll(a, 1, axis=0)] *)
Definition roll0 {A} (a : arr A) : arr A := Arr (width a) (roll1 (rows a)).
(** [a[idx, np.arange(a.shape[-1])]] *)
Definition fancy {A} (d : A) (a : arr A) (idx : arr nat) : arr A :=
  Arr (width a) (map (fun (ix : nat -> nat) (j : nat) => row d a (ix j) j) (rows idx)).

(** Boolean column masks.  [picked n mask]: the positions of the true entries *)
Definition picked (n : nat) (mask : nat -> bool) : list nat := filter mask (seq 0 n).
(** [x[..., mask]] of a one dimensional array, or of all rows together *)
Definition select {A} (n : nat) (mask : nat -> bool) (x : nat -> A) : nat -> A :=
  fun k => x (nth k (picked n mask) 0%nat).
(** [a[:, mask] = b]: the columns of [b], in order, replace the masked columns *)
Definition put {A} (mask : nat -> bool) (b a : arr A) : arr A :=
  Arr (width a) (map (fun p : (nat -> A) * (nat -> A) => fun j =>
                        if mask j then fst p (length (picked j mask)) else snd p j)
                     (combine (rows b) (rows a))).

(** ** The primitives *)
(** A set of rays, [rays.shape = (2, 4, n)]: one [ray] for every column. *)
Definition rayset : Type := nat -> ray.
Definition dir (rs : rayset) (axis : nat) (j : nat) : R :=
  match axis with 0 => vx | 1 => vy | 2 => vz | _ => vw end (direction (rs j)).
Definition org (rs : rayset) (axis : nat) (j : nat) : R :=
  match axis with 0 => vx | 1 => vy | 2 => vz | _ => vw end (origin (rs j)).

(** operations.py:66-77 [element_wise_dot(.., axis=0)] on the first [k] rows *)
Fixpoint dot_rows (u v : nat -> nat -> R) (k : nat) (j : nat) : R :=
  match k with
  | O => 0
  | S k => dot_rows u v k j + u k j * v k j
  end.

(** primitives.py:241-271 [Sphere.intersect] *)
Definition batch_sphere (radius : R) (n : nat) (rs : rayset) : arr xr :=
  let a := dot_rows (dir rs) (dir rs) 3 in
  let b := fun j => 2 * dot_rows (dir rs) (org rs) 3 j in
  let c := fun j => dot_rows (org rs) (org rs) 3 j - radius * radius in
  let disc := fun j => b j * b j - 4 * a j * c j in
  let root := fun j => sqrt (Rmax 0 (disc j)) in
  let hits := Arr n [fun j => xdiv (Fin (- b j + root j)) (Fin (2 * a j));
                     fun j => xdiv (Fin (- b j - root j)) (Fin (2 * a j))] in
  where_else (fun j => rleb 0 (disc j)) hits PInf.

(** operations.py:28-63 [binomial_root] *)
Definition batch_binomial_root (n : nat) (a b c : nat -> R) : arr xr :=
  let disc := fun j => b j * b j - 4 * a j * c j in
  let linear := fun j => isclose (a j) 0 in
  let root := fun j => sqrt (Rmax 0 (disc j)) in
  let den := fun j => Fin (2 * a j + b2r (isclose (a j) 0)) in
  let polyroots := Arr n [fun j => xdiv (Fin (- b j + root j)) (den j);
                          fun j => xdiv (Fin (- b j - root j)) (den j)] in
  let polyroots := where_else (fun j => rleb 0 (disc j)) polyroots PInf in
  let lin := fun j => xdiv (Fin (- c j)) (Fin (b j + b2r (reqb (b j) 0))) in
  let polyroots := where_row linear (Arr n [lin; lin]) polyroots in
  let c_only := fun j => (linear j && isclose (b j) 0)%bool in
  let polyroots := where_then c_only PInf polyroots in
  set_row 0 (fun j => if (c_only j && rleb (c j) 0)%bool then MInf
                      else row PInf polyroots 0 j) polyroots.

(** primitives.py:372-390 and 683-703: the hits with the planes z = lo and z = hi *)
Definition batch_z_clip (lo hi : R) (n : nat) (rs : rayset) : arr xr :=
  let parallel := fun j => isclose (dir rs 2 j) 0 in
  let inside := fun j => (rleb lo (org rs 2 j) && rleb (org rs 2 j) hi)%bool in
  let den := fun j => Fin (dir rs 2 j + b2r (parallel j)) in
  let bounding := full 2 n PInf in
  let bounding := set_row 0 (fun j => xdiv (Fin (lo - org rs 2 j)) (den j)) bounding in
  let bounding := set_row 1 (fun j => xdiv (Fin (hi - org rs 2 j)) (den j)) bounding in
  let bounding := where_then parallel PInf bounding in
  set_row 0 (fun j => if (parallel j && inside j)%bool then MInf
                      else row PInf bounding 0 j) bounding.

(** primitives.py:393-399 and 706-712: hstack, sort, reshape to four rows, keep the
    larger of the first two and the smaller of the last two *)
Definition batch_clip (a b : arr xr) : arr xr :=
  let all_hits := hstack a b in
  let all_hits := sort0 all_hits in
  let all_hits := reshape PInf 4 all_hits in
  let hits := Arr (width all_hits) [max0 (top_rows 2 all_hits); min0 (bottom_rows 2 all_hits)] in
  where_else (fun j => xleb (row PInf hits 0 j) (row PInf hits 1 j)) hits PInf.

(** primitives.py:650-712 [Cylinder.intersect] *)
Definition batch_cylinder (radius h_min h_max : R) (n : nat) (rs : rayset) : arr xr :=
  let a := dot_rows (dir rs) (dir rs) 2 in
  let b := fun j => 2 * dot_rows (dir rs) (org rs) 2 j in
  let c := fun j => dot_rows (org rs) (org rs) 2 j - radius * radius in
  let sidewall_hits := sort0 (batch_binomial_root n a b c) in
  batch_clip sidewall_hits (batch_z_clip h_min h_max n rs).

(** primitives.py:320-399 [Paraboloid.intersect].  SIMPLIFICATION: line 386 computes
    [-origins[2]] where [batch_z_clip] has [0 - origins[2]], the same number. *)
Definition batch_paraboloid (focus height : R) (n : nat) (rs : rayset) : arr xr :=
  let a := dot_rows (dir rs) (dir rs) 2 in
  let b := fun j => 2 * dot_rows (org rs) (dir rs) 2 j - 4 * focus * dir rs 2 j in
  let c := fun j => dot_rows (org rs) (org rs) 2 j - 4 * focus * org rs 2 j in
  let disc := fun j => b j * b j - 4 * a j * c j in
  let linear := fun j => isclose (a j) 0 in
  let root := fun j => sqrt (Rmax 0 (disc j)) in
  let den := fun j => Fin (2 * a j + b2r (linear j)) in
  let hits := Arr n [fun j => xdiv (Fin (- b j + root j)) (den j);
                     fun j => xdiv (Fin (- b j - root j)) (den j)] in
  let hits := where_else (fun j => rleb 0 (disc j)) hits PInf in
  let linear_hits := full 2 n PInf in
  let linear_hits := set_row 0 (fun j => xdiv (Fin (- c j)) (Fin (b j + b2r (isclose (b j) 0)))) linear_hits in
  let linear_hits := set_row 1 (fun j => if rleb 0 (dir rs 2 j) then PInf else MInf) linear_hits in
  let hits := where_row linear linear_hits hits in
  let hits := sort0 hits in
  batch_clip hits (batch_z_clip 0 height n rs).

(** primitives.py:457-476, the body of the loop over the two axes of a plane *)
Definition batch_plane_axis (n : nat) (rs : rayset) (axis : nat) (dim : R) (boundary : arr xr) : arr xr :=
  let is_zero := fun j => isclose (dir rs axis j) 0 in
  let skew := fun j => if rleb (Rabs (org rs axis j)) (dim / 2) then MInf else PInf in
  let den := fun j => Fin (dir rs axis j + b2r (is_zero j)) in
  let hit1 := fun j => xdiv (Fin (- (org rs axis j - dim / 2))) (den j) in
  let hit2 := fun j => xdiv (Fin (- (org rs axis j + dim / 2))) (den j) in
  let boundary := set_row_slice PInf 0 (axis * n) ((1 + axis) * n)
                    (fun j => if is_zero j then skew j else hit1 j) boundary in
  set_row_slice PInf 1 (axis * n) ((1 + axis) * n)
    (fun j => if is_zero j then PInf else hit2 j) boundary.

(** primitives.py:436-492 [Plane.intersect].  [boundary_hits[:2].sort(axis=0)] sorts a
    view, so it writes the first two rows. *)
Definition batch_plane (w l : R) (n : nat) (rs : rayset) : arr xr :=
  let boundary := full 2 (2 * n) PInf in
  let boundary := batch_plane_axis n rs 0 w boundary in
  let boundary := batch_plane_axis n rs 1 l boundary in
  let boundary := sort0 boundary in
  let boundary := reshape PInf 4 boundary in
  let boundary := vstack (sort0 (top_rows 2 boundary)) (bottom_rows 2 boundary) in
  let boundary := vstack (top_rows 2 boundary) (sort0 (bottom_rows 2 boundary)) in
  let skew_ray := fun j => isclose (dir rs 2 j) 0 in
  let plane_hits := fun j => xdiv (Fin (- org rs 2 j)) (Fin (dir rs 2 j + b2r (skew_ray j))) in
  let plane_hits := fun j => if skew_ray j then PInf else plane_hits j in
  let in_bounds := fun j => (xleb (row PInf boundary 1 j) (plane_hits j) &&
                             xleb (plane_hits j) (row PInf boundary 2 j))%bool in
  let plane_hits := fun j => if in_bounds j then plane_hits j else PInf in
  Arr n [plane_hits; plane_hits].

(** [axis_spans[axis]] *)
Definition span (b : box) (axis : nat) : xr * xr :=
  match axis with 0 => spanx b | 1 => spany b | _ => spanz b end.

(** primitives.py:534-567, the body of the loop over the axes of a cube: the matrices
    [new_hits] and [hits] *)
Definition batch_cube_axis (b : box) (rs : rayset) (st : arr xr * arr xr) (axis : nat) : arr xr * arr xr :=
  let '(new_hits, hits) := st in
  let '(lo, hi) := span b axis in
  let is_zero := fun j => isclose (dir rs axis j) 0 in
  let o := fun j => Fin (org rs axis j) in
  let skew_min := fun j => if (xleb (o j) hi && xleb lo (o j))%bool then MInf else PInf in
  let den := fun j => Fin (dir rs axis j + b2r (is_zero j)) in
  let new_hits := set_row 0 (fun j => if negb (is_zero j)
                                      then xdiv (xopp (xsub (o j) lo)) (den j)
                                      else skew_min j) new_hits in
  let new_hits := set_row 1 (fun j => if negb (is_zero j)
                                      then xdiv (xopp (xsub (o j) hi)) (den j)
                                      else PInf) new_hits in
  let new_hits := sort0 new_hits in
  let hits := set_row axis (row PInf new_hits 0) hits in
  let hits := set_row (3 + axis) (row PInf new_hits 1) hits in
  (new_hits, hits).

(** primitives.py:516-581 [Cube.intersect] *)
Definition batch_cube (b : box) (n : nat) (rs : rayset) : arr xr :=
  let hits := full 6 n (Fin (-1)) in
  let new_hits := full 2 n (Fin 0) in
  let '(new_hits, hits) := fold_left (batch_cube_axis b rs) [0; 1; 2]%nat (new_hits, hits) in
  let cube_hits := full (length (rows new_hits)) n (Fin 0) in
  let cube_hits := set_row 0 (max0 (top_rows 3 hits)) cube_hits in
  let cube_hits := set_row 1 (min0 (bottom_rows 3 hits)) cube_hits in
  where_else (fun j => xltb (row PInf cube_hits 0 j) (row PInf cube_hits 1 j)) cube_hits PInf.

(** [self._surface_primitive.intersect(...)] *)
Definition batch_prim (p : prim) (n : nat) (rs : rayset) : arr xr :=
  match p with
  | PSphere rad => batch_sphere rad n rs
  | PCylinder rad lo hi _ => batch_cylinder rad lo hi n rs
  | PCube c0 c1 => batch_cube (cube_box (fin3 c0) (fin3 c1)) n rs
  | PParaboloid f h => batch_paraboloid f h n rs
  | PPlane w l => batch_plane w l n rs
  end.

(** ** Surfaces and CSG trees *)
Section Sorting.
  Variable asort : list xr -> list nat. (* np.argsort of one column *)

  (** [np.argsort(a, axis=0)] *)
  Definition argsort0 (a : arr xr) : arr nat := axis0 0%nat asort a.

  (** csg.py:13-61 [array_csg] on two dimensional arrays, [sort_output=False] *)
  Definition batch_array_csg (a1 a2 : arr xr) (op : operation) : arr xr :=
    let merged_array := vstack a1 a2 in
    let merged_argsort := argsort0 merged_array in
    let merged_array := fancy PInf merged_array merged_argsort in
    let surface_count :=
      match op with
      | UNION | INTERSECT =>
          axis0 0%Z cumsum (amap (fun i => if Nat.odd i then (-1)%Z else 1%Z) merged_argsort)
      | DIFFERENCE =>
          amap (fun z => (z + 1)%Z)
            (axis0 0%Z cumsum
               (amap (fun i => if xorb (Nat.odd i) (length (rows a1) <=? i)%nat then (-1)%Z else 1%Z)
                     merged_argsort))
      end in
    let mask :=
      match op with
      | UNION => amap2 (fun x y => xorb (negb (Z.eqb x 0)) (negb (Z.eqb y 0)))
                       surface_count (roll0 surface_count)
      | INTERSECT | DIFFERENCE =>
          let is_two := amap (fun z => Z.eqb z 2) surface_count in
          amap2 orb is_two (roll0 is_two)
      end in
    amap2 (fun (k : bool) x => if k then x else PInf) mask merged_array.

  (** csg.py:127-129: [np.any(np.isfinite(self._aobb.intersect(rays)), axis=0)] *)
  Definition batch_box_mask (b : box) (n : nat) (rs : rayset) : nat -> bool :=
    fun j => existsb (fun x => x) (column (amap xfinite (batch_cube b n rs)) j).

  (** world_objects.py:360-383 [TracerSurface.intersect] and csg.py:118-160
      [CSGSurface.intersect]: the hit matrix and the surface matrix *)
  Fixpoint batch_intersect (s : shape) (n : nat) (rs : rayset) : arr xr * arr Z :=
    match s with
    | Leaf f _ =>
        let local_ray_set := fun j => ray_map (s_obj f) (rs j) in
        let hits := batch_prim (s_prim f) n local_ray_set in
        (sort0 hits, full (length (rows hits)) (width hits) (s_id f))
    | Node _ op b lc rc =>
        let mask := batch_box_mask b n rs in
        let local_ray_set := select n mask rs in
        let m := length (picked n mask) in
        let '(l_hits, l_surfaces) := batch_intersect lc m local_ray_set in
        let '(r_hits, r_surfaces) := batch_intersect rc m local_ray_set in
        let csg_surfaces := vstack l_surfaces r_surfaces in
        let surface_sort_mask := argsort0 (vstack l_hits r_hits) in
        let csg_surfaces := fancy (-1)%Z csg_surfaces surface_sort_mask in
        let csg_hits := batch_array_csg l_hits r_hits op in
        let hit_argsort := argsort0 csg_hits in
        let csg_surfaces := fancy (-1)%Z csg_surfaces hit_argsort in
        let csg_hits := fancy PInf csg_hits hit_argsort in
        let all_hits := full (length (rows csg_hits)) n PInf in
        let all_hits := put mask csg_hits all_hits in
        let all_surfaces := full (length (rows csg_hits)) n (-1)%Z in
        let all_surfaces := put mask csg_surfaces all_surfaces in
        (all_hits, all_surfaces)
    end.

  (** ** _st_propagate *)
  (** _pyrayt.py:376-386, the body of the loop over the components *)
  Definition batch_propagate_shape (n : nat) (rs : rayset) (st : (nat -> xr) * (nat -> Z)) (s : shape)
      : (nat -> xr) * (nat -> Z) :=
    let '(hit_distances, hit_surfaces) := st in
    let '(shape_hits, shape_surfaces) := batch_intersect s n rs in
    let shape_hits := amap positive_or_inf shape_hits in
    let nearest_hit_arg := fun j => argmin (column shape_hits j) in
    let nearest_hit := fun j => row PInf shape_hits (nearest_hit_arg j) j in
    let nearest_surface := fun j => row (-1)%Z shape_surfaces (nearest_hit_arg j) j in
    let new_minima := fun j => xltb (nearest_hit j) (hit_distances j) in
    ((fun j => if new_minima j then nearest_hit j else hit_distances j),
     (fun j => if new_minima j then nearest_surface j else hit_surfaces j)).

  (** _pyrayt.py:370-392 [_st_propagate]: the arrays hit_distances and hit_surfaces *)
  Definition batch_propagate (comps : list shape) (n : nat) (rs : rayset) : (nat -> xr) * (nat -> Z) :=
    fold_left (batch_propagate_shape n rs) comps ((fun _ => PInf), (fun _ => (-1)%Z)).
End Sorting.
