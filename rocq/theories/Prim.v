(** * Prim: model of /repo/tinygfx/g3d/primitives.py, one ray / one point at a time *)
From Coq Require Import Reals List Bool.
Import ListNotations.
From Verif Require Import XR Lin Ops.
Open Scope R_scope.

(** The spans of an axis aligned box: [axis_spans] of primitives.Cube, a 3x2
    matrix.  Spans of CSG bounding boxes can be infinite. *)
Record box : Type := Box { spanx : xr * xr; spany : xr * xr; spanz : xr * xr }.

(** The five primitives with their constructor arguments.
    primitives.py:220 Sphere, 621 Cylinder, 501 Cube, 299 Paraboloid, 422 Plane *)
Inductive prim : Type :=
| PSphere (radius : R)
| PCylinder (radius h_min h_max : R) (capped : bool)
| PCube (c0 c1 : R * R * R)
| PParaboloid (focus height : R)
| PPlane (width length : R).

(** primitives.py:510 [axis_spans = np.sort(np.vstack((min_corner, max_corner)), axis=0).T],
    with arbitrary floats as corners *)
Definition cube_box (c0 c1 : xr * xr * xr) : box :=
  let '(x0, y0, z0) := c0 in
  let '(x1, y1, z1) := c1 in
  Box (sort2 (x0, x1)) (sort2 (y0, y1)) (sort2 (z0, z1)).

Definition fin3 (c : R * R * R) : xr * xr * xr :=
  let '(x, y, z) := c in (Fin x, Fin y, Fin z).

(** primitives.py:304-307: the only constructor that raises (ValueError). *)
Definition prim_init (p : prim) : option prim :=
  match p with
  | PParaboloid f h => if (rleb f 0 || rleb h 0)%bool then None else Some p
  | _ => Some p
  end.

(** ** Sphere *)
(** primitives.py:241-271 [Sphere.intersect] *)
Definition sphere_hits (radius : R) (r : ray) : xr * xr :=
  let o := origin r in let d := direction r in
  let a := vx d * vx d + vy d * vy d + vz d * vz d in
  let b := 2 * (vx d * vx o + vy d * vy o + vz d * vz o) in
  let c := vx o * vx o + vy o * vy o + vz o * vz o - radius * radius in
  let disc := b * b - 4 * a * c in
  let root := sqrt (Rmax 0 disc) in
  let h0 := xdiv (Fin (- b + root)) (Fin (2 * a)) in
  let h1 := xdiv (Fin (- b - root)) (Fin (2 * a)) in
  if rleb 0 disc then (h0, h1) else (PInf, PInf).

(** primitives.py:273-296 [Sphere.normal] *)
Definition sphere_normal (p : v4) : option v4 := vnormalize (vset_w p 0).

(** ** Clipping between two planes perpendicular to z
    primitives.py:372-390 (Paraboloid, lo = 0, hi = height) and 683-703 (Cylinder). *)
Definition z_clip (lo hi oz dz : R) : xr * xr :=
  let parallel := isclose dz 0 in
  let inside := (rleb lo oz && rleb oz hi)%bool in
  let den := Fin (dz + b2r parallel) in
  let b0 := xdiv (Fin (lo - oz)) den in
  let b1 := xdiv (Fin (hi - oz)) den in
  let '(b0, b1) := if parallel then (PInf, PInf) else (b0, b1) in
  ((if (parallel && inside)%bool then MInf else b0), b1).

(** primitives.py:393-398 and 706-711: both pairs are sorted, the larger of the
    lower ends and the smaller of the upper ends are kept.  (The reshape of the
    2x2n array into 4xn rows is modelled in Batch.v.) *)
Definition clip_hits (h1 h2 : xr * xr) : xr * xr :=
  let '(a0, a1) := sort2 h1 in
  let '(b0, b1) := sort2 h2 in
  let lo := xmax a0 b0 in
  let hi := xmin a1 b1 in
  if xleb lo hi then (lo, hi) else (PInf, PInf).

(** ** Cylinder *)
(** primitives.py:650-712 [Cylinder.intersect] (ignores [capped], as the code does) *)
Definition cylinder_hits (radius h_min h_max : R) (r : ray) : xr * xr :=
  let o := origin r in let d := direction r in
  let a := vx d * vx d + vy d * vy d in
  let b := 2 * (vx d * vx o + vy d * vy o) in
  let c := vx o * vx o + vy o * vy o - radius * radius in
  let sidewall := sort2 (binomial_root a b c) in
  clip_hits sidewall (z_clip h_min h_max (vz o) (vz d)).

(** primitives.py:714-741 [Cylinder.normal] *)
Definition cylinder_normal (h_min h_max : R) (capped : bool) (p : v4) : option v4 :=
  let n := V4 (vx p) (vy p) 0 0 in
  let n := if capped then
             let n := if isclose (vz p) h_min then V4 0 0 (-1) 0 else n in
             if isclose (vz p) h_max then V4 0 0 1 0 else n
           else n in
  vnormalize n.

(** ** Paraboloid *)
(** primitives.py:320-399 [Paraboloid.intersect] *)
Definition parabola_hits (focus : R) (r : ray) : xr * xr :=
  let o := origin r in let d := direction r in
  let a := vx d * vx d + vy d * vy d in
  let b := 2 * (vx o * vx d + vy o * vy d) - 4 * focus * vz d in
  let c := vx o * vx o + vy o * vy o - 4 * focus * vz o in
  let disc := b * b - 4 * a * c in
  let linear := isclose a 0 in
  let root := sqrt (Rmax 0 disc) in
  let den := Fin (2 * a + b2r linear) in
  let h0 := xdiv (Fin (- b + root)) den in
  let h1 := xdiv (Fin (- b - root)) den in
  let '(h0, h1) := if rleb 0 disc then (h0, h1) else (PInf, PInf) in
  let l0 := xdiv (Fin (- c)) (Fin (b + b2r (isclose b 0))) in
  let l1 := if rleb 0 (vz d) then PInf else MInf in
  sort2 (if linear then (l0, l1) else (h0, h1)).

Definition paraboloid_hits (focus height : R) (r : ray) : xr * xr :=
  clip_hits (parabola_hits focus r) (z_clip 0 height (vz (origin r)) (vz (direction r))).

(** primitives.py:401-419 [Paraboloid.normal] *)
Definition paraboloid_normal (focus height : R) (p : v4) : option v4 :=
  let n := V4 (vx p) (vy p) (-2 * focus) 0 in
  vnormalize (if isclose (vz p) height then V4 0 0 1 0 else n).

(** ** Plane *)
(** primitives.py:454-472, the hits with the two lines bounding one axis *)
Definition plane_axis_hits (dim o d : R) : xr * xr :=
  let is_zero := isclose d 0 in
  let skew := if rleb (Rabs o) (dim / 2) then MInf else PInf in
  let hit1 := xdiv (Fin (- (o - dim / 2))) (Fin (d + b2r is_zero)) in
  let hit2 := xdiv (Fin (- (o + dim / 2))) (Fin (d + b2r is_zero)) in
  sort2 ((if is_zero then skew else hit1), (if is_zero then PInf else hit2)).

(** primitives.py:436-492 [Plane.intersect] *)
Definition plane_hits (width length : R) (r : ray) : xr * xr :=
  let o := origin r in let d := direction r in
  let '(x0, x1) := plane_axis_hits width (vx o) (vx d) in
  let '(y0, y1) := plane_axis_hits length (vy o) (vy d) in
  let bh1 := snd (sort2 (x0, y0)) in        (* boundary_hits[1] *)
  let bh2 := fst (sort2 (x1, y1)) in        (* boundary_hits[2] *)
  let skew := isclose (vz d) 0 in
  let h := xdiv (Fin (- vz o)) (Fin (vz d + b2r skew)) in
  let h := if skew then PInf else h in
  let h := if (xleb bh1 h && xleb h bh2)%bool then h else PInf in
  (h, h).

(** primitives.py:494-498 [Plane.normal] *)
Definition plane_normal : v4 := V4 0 0 1 0.

(** ** Cube *)
(** primitives.py:531-565, the two hits with the planes of one axis *)
Definition cube_axis_hits (span : xr * xr) (o d : R) : xr * xr :=
  let '(lo, hi) := span in
  let is_zero := isclose d 0 in
  let skew_min := if (xleb (Fin o) hi && xleb lo (Fin o))%bool then MInf else PInf in
  let h0 := if negb is_zero
            then xdiv (xopp (xsub (Fin o) lo)) (Fin (d + b2r is_zero))
            else skew_min in
  let h1 := if negb is_zero
            then xdiv (xopp (xsub (Fin o) hi)) (Fin (d + b2r is_zero))
            else PInf in
  sort2 (h0, h1).

(** primitives.py:516-581 [Cube.intersect] *)
Definition cube_hits (b : box) (r : ray) : xr * xr :=
  let o := origin r in let d := direction r in
  let '(x0, x1) := cube_axis_hits (spanx b) (vx o) (vx d) in
  let '(y0, y1) := cube_axis_hits (spany b) (vy o) (vy d) in
  let '(z0, z1) := cube_axis_hits (spanz b) (vz o) (vz d) in
  let lo := xmax (xmax x0 y0) z0 in
  let hi := xmin (xmin x1 y1) z1 in
  if xltb lo hi then (lo, hi) else (PInf, PInf).

(** primitives.py:593-597, one row of the normal of [Cube.normal] *)
Definition cube_normal_axis (lo hi x : R) : R :=
  let n := if isclose x lo then -1 else 0 in
  if isclose x hi then 1 else n.

(** primitives.py:583-602 [Cube.normal].  Row 3 is overwritten with 0 (line 598). *)
Definition cube_normal (c0 c1 : R * R * R) (p : v4) : option v4 :=
  let '(x0, y0, z0) := c0 in
  let '(x1, y1, z1) := c1 in
  vnormalize (V4 (cube_normal_axis (Rmin x0 x1) (Rmax x0 x1) (vx p))
                 (cube_normal_axis (Rmin y0 y1) (Rmax y0 y1) (vy p))
                 (cube_normal_axis (Rmin z0 z1) (Rmax z0 z1) (vz p)) 0).

(** ** Dispatch *)
(** [self._surface_primitive.intersect(...)]: two rows *)
Definition prim_hits (p : prim) (r : ray) : xr * xr :=
  match p with
  | PSphere rad => sphere_hits rad r
  | PCylinder rad lo hi _ => cylinder_hits rad lo hi r
  | PCube c0 c1 => cube_hits (cube_box (fin3 c0) (fin3 c1)) r
  | PParaboloid f h => paraboloid_hits f h r
  | PPlane w l => plane_hits w l r
  end.

(** [self._surface_primitive.normal(...)]; [None] stands for a nan vector *)
Definition prim_normal (p : prim) (x : v4) : option v4 :=
  match p with
  | PSphere _ => sphere_normal x
  | PCylinder _ lo hi c => cylinder_normal lo hi c x
  | PCube c0 c1 => cube_normal c0 c1 x
  | PParaboloid f h => paraboloid_normal f h x
  | PPlane _ _ => Some plane_normal
  end.

(** [bounding_points]: the eight corners of the primitive's local box, from two
    opposite corners (primitives.py:9-15, 225-227, 311-315, 431-434, 512-514,
    635-637), in the order of itertools.product. *)
Definition corner_points (c0 c1 : R * R * R) : list v4 :=
  let '(x0, y0, z0) := c0 in
  let '(x1, y1, z1) := c1 in
  flat_map (fun x => flat_map (fun y => map (fun z => point x y z)
             [Rmin z0 z1; Rmax z0 z1]) [Rmin y0 y1; Rmax y0 y1]) [Rmin x0 x1; Rmax x0 x1].

Definition prim_corners (p : prim) : (R * R * R) * (R * R * R) :=
  match p with
  | PSphere r => ((- r, - r, - r), (r, r, r))
  | PCylinder r lo hi _ => ((- r, - r, lo), (r, r, hi))
  | PCube c0 c1 => (c0, c1)
  | PParaboloid f h =>
      let rm := sqrt (4 * f * h) in ((- rm, - rm, 0), (rm, rm, h))
  | PPlane w l => ((- w / 2, - l / 2, - (1 / 100)), (w / 2, l / 2, 1 / 100))
  end.

Definition bounding_points (p : prim) : list v4 :=
  let '(c0, c1) := prim_corners p in corner_points c0 c1.

(** ** 2D shapes *)
(** primitives.py:184-195 [Disk] *)
Definition disk_from_diameter (d : R) : R := d / 2.
Definition disk_contains (radius x y : R) : bool := rleb (sqrt (x * x + y * y)) radius.
(** primitives.py:204-217 [Rectangle.point_in_shape] *)
Definition rectangle_contains (x_length y_length x y : R) : bool :=
  (rleb (Rabs x) (x_length / 2) && rleb (Rabs y) (y_length / 2))%bool.
