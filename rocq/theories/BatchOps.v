(** * BatchOps: the array code of the normals and of reflect and refract

    Prim.v, Surf.v and Ops.v follow one point or one vector.  The code handles a 4 x n array
    with one column per ray; its elements may be infinite or nan. *)
From Coq Require Import Reals List Bool ZArith Arith.
Import ListNotations.
From Verif Require Import XR Arr Lin Ops Prim Csg Surf World Tracer Batch.
Open Scope R_scope.

(** ** numpy on 4 x n arrays *)
(** the sum over axis 0 of the element by element product: operations.py:66-83
    [element_wise_dot(a, b, axis=0)], and the sum of squares inside np.linalg.norm *)
Definition dot_list (l m : list xr) : xr :=
  fold_left xadd (map (fun p : xr * xr => xmul (fst p) (snd p)) (combine l m)) (Fin 0).
Definition dot0 (a b : arr xr) : nat -> xr := fun j => dot_list (column a j) (column b j).
(** [np.linalg.norm(a, axis=0)] *)
Definition norm0 (a : arr xr) : nat -> xr := fun j => xsqrt (dot0 a a j).
(** an operation between a 4 x n array and an array of n numbers, e.g. [a / r] *)
Definition with_row (f : xr -> xr -> xr) (a : arr xr) (r : nat -> xr) : arr xr :=
  Arr (width a) (map (fun (q : nat -> xr) (j : nat) => f (q j) (r j)) (rows a)).
Definition normalize0 (a : arr xr) : arr xr := with_row xdiv a (norm0 a).
(** [np.array([[x], [y], [z], [w]])], broadcast to n columns *)
Definition const_cols (n : nat) (l : list R) : arr xr := Arr n (map (fun x (_ : nat) => Fin x) l).
(** [np.matmul(m, a)] *)
Definition vec_list (v : v4) : list xr := [Fin (vx v); Fin (vy v); Fin (vz v); Fin (vw v)].
Definition matmul (m : mat) (a : arr xr) : arr xr :=
  Arr (width a) (map (fun (v : v4) (j : nat) => dot_list (vec_list v) (column a j))
                     [row0 m; row1 m; row2 m; row3 m]).
(** [np.isclose(x, b)] for a finite [b] *)
Definition xisclose (x : xr) (b : R) : bool := match x with Fin x => isclose x b | _ => false end.

(** ** Normals *)
(** primitives.py:273-296 [Sphere.normal] of a 4 x n array *)
Definition batch_sphere_normal (pts : arr xr) : arr xr :=
  normalize0 (set_row 3 (fun _ => Fin 0) pts).

(** primitives.py:401-419 [Paraboloid.normal] *)
Definition batch_paraboloid_normal (focus height : R) (pts : arr xr) : arr xr :=
  let normals := set_row 3 (fun _ => Fin 0) pts in
  let normals := set_row 2 (fun _ => Fin (-2 * focus)) normals in
  let normals := where_row (fun j => xisclose (row NaN pts 2 j) height)
                           (const_cols (width pts) [0; 0; 1; 0]) normals in
  normalize0 normals.

(** primitives.py:494-498 [Plane.normal] *)
Definition batch_plane_normal (pts : arr xr) : arr xr :=
  set_row 2 (fun _ => Fin 1) (full (length (rows pts)) (width pts) (Fin 0)).

(** primitives.py:583-602 [Cube.normal]; [lows] and [highs] are the columns of
    [np.vstack((self.axis_spans, (0, 0)))] *)
Definition batch_cube_normal (lows highs : list R) (pts : arr xr) : arr xr :=
  let close_to := fun ends => Arr (width pts)
    (map (fun p : (nat -> xr) * R => fun j => xisclose (fst p j) (snd p)) (combine (rows pts) ends)) in
  let negative_normals := close_to lows in
  let positive_normals := close_to highs in
  let normals := amap (fun b : bool => if b then Fin (-1) else Fin 0) negative_normals in
  let normals := amap2 (fun (b : bool) x => if b then Fin 1 else x) positive_normals normals in
  let normals := set_row 3 (fun _ => Fin 0) normals in
  normalize0 normals.

(** primitives.py:714-741 [Cylinder.normal] *)
Definition batch_cylinder_normal (h_min h_max : R) (capped : bool) (pts : arr xr) : arr xr :=
  let normals := set_row 2 (fun _ => Fin 0) pts in
  let normals := set_row 3 (fun _ => Fin 0) normals in
  let normals :=
    if capped then
      let z_coord := row NaN pts 2 in
      let negative_normals := fun j => xisclose (z_coord j) h_min in
      let positive_normals := fun j => xisclose (z_coord j) h_max in
      let normals := where_row negative_normals (const_cols (width pts) [0; 0; -1; 0]) normals in
      where_row positive_normals (const_cols (width pts) [0; 0; 1; 0]) normals
    else normals in
  normalize0 normals.

(** [self._surface_primitive.normal(...)] *)
Definition batch_prim_normal (p : prim) (pts : arr xr) : arr xr :=
  match p with
  | PSphere _ => batch_sphere_normal pts
  | PCylinder _ lo hi c => batch_cylinder_normal lo hi c pts
  | PCube (x0, y0, z0) (x1, y1, z1) =>
      batch_cube_normal [Rmin x0 x1; Rmin y0 y1; Rmin z0 z1; 0] [Rmax x0 x1; Rmax y0 y1; Rmax z0 z1; 0] pts
  | PParaboloid f h => batch_paraboloid_normal f h pts
  | PPlane _ _ => batch_plane_normal pts
  end.

(** world_objects.py:401-418 [get_world_normals] *)
Definition batch_world_normals (s : surf) (positions : arr xr) : arr xr :=
  let local_ray_set := matmul (s_obj s) positions in
  let local_normals := batch_prim_normal (s_prim s) local_ray_set in
  let world_normals := matmul (mtrans (s_obj s)) local_normals in
  let world_normals := set_row 3 (fun _ => Fin 0) world_normals in
  let world_normals := normalize0 world_normals in
  amap (fun x => xmul x (Fin (s_nscale s))) world_normals.

(** ** Reflection and refraction *)
(** operations.py:105-107 [reflect] of two 4 x n arrays *)
Definition batch_reflect (vectors normals : arr xr) : arr xr :=
  let dots := dot0 vectors normals in
  amap2 xsub vectors (with_row xmul (amap (fun x => xmul (Fin 2) x) normals) dots).

(** operations.py:110-162 [refract] of two 4 x n arrays and two arrays of n indices.  Line 125
    also normalizes the argument in place; every caller overwrites it with the result. *)
Definition batch_refract (vectors normals : arr xr) (n1 n2 : nat -> xr) (n_global : R)
    : arr xr * (nat -> xr) :=
  let vectors := normalize0 vectors in
  let negated := amap xopp normals in
  let cos_theta1_p := dot0 vectors normals in
  let cos_theta1_n := dot0 vectors negated in
  let exiting := fun j => xltb (Fin 0) (cos_theta1_p j) in
  let n2_local := fun j => if exiting j then Fin n_global else n2 j in
  let normals := where_row exiting negated normals in
  let r := fun j => xdiv (n1 j) (n2_local j) in
  let cos_theta1 := fun j => if exiting j then cos_theta1_p j else cos_theta1_n j in
  let radicand := fun j => xsub (Fin 1) (xmul (xmul (r j) (r j))
                                              (xsub (Fin 1) (xmul (cos_theta1 j) (cos_theta1 j)))) in
  let cos_theta2 := fun j => xsqrt (xmax (Fin 0) (radicand j)) in
  let transmitted := fun j => xltb (Fin 0) (radicand j) in
  let refracted := where_row transmitted
    (amap2 xadd (with_row (fun x k => xmul k x) vectors r)
                (with_row (fun x k => xmul k x) normals
                          (fun j => xsub (xmul (r j) (cos_theta1 j)) (cos_theta2 j))))
    (amap2 xadd vectors (with_row (fun x k => xmul k x) normals
                                  (fun j => xmul (Fin 2) (cos_theta1 j)))) in
  let refracted := normalize0 refracted in
  let n_refracted := fun j => if transmitted j then n2_local j else n1 j in
  (refracted, n_refracted).
