(** * SpecMedium: what the rays of a trace run through
    Specification only. *)
From Coq Require Import Reals List Bool ZArith.
Import ListNotations.
From Verif Require Import XR Lin Prim Csg Surf SpecGeom SpecTree SpecNormal SpecOptics World Tracer SpecTrace SpecCrossing.
Open Scope R_scope.

(** [x] is a point of the surface of the solid, and not of an edge *)
Definition smooth_at (p : prim) (x : v4) : Prop :=
  match p with
  | PSphere r => vx x * vx x + vy x * vy x + vz x * vz x = r * r
  | PCylinder r lo hi _ =>
      (vx x * vx x + vy x * vy x = r * r /\ lo < vz x < hi) \/
      (vx x * vx x + vy x * vy x < r * r /\ lo < hi /\ (vz x = lo \/ vz x = hi))
  | PCube (x0, y0, z0) (x1, y1, z1) =>
      let open a b v := Rmin a b < v < Rmax a b in let face a b v := a <> b /\ (v = a \/ v = b) in
      (face x0 x1 (vx x) /\ open y0 y1 (vy x) /\ open z0 z1 (vz x)) \/
      (open x0 x1 (vx x) /\ face y0 y1 (vy x) /\ open z0 z1 (vz x)) \/
      (open x0 x1 (vx x) /\ open y0 y1 (vy x) /\ face z0 z1 (vz x))
  | PParaboloid f h =>
      (vx x * vx x + vy x * vy x = 4 * f * vz x /\ vz x < h) \/ (vx x * vx x + vy x * vy x < 4 * f * vz x /\ vz x = h)
  | PPlane _ _ => False
  end.
(** From [x], the directions before the plane with normal [n] lead out of [P] and those behind it lead into [P] *)
Definition sided (P : v4 -> Prop) (x n : v4) : Prop :=
  forall d, vw d = 0 ->
  (vdot n d < 0 -> exists eps, 0 < eps /\ forall t, 0 < t < eps -> P (ray_at (Ray x d) t)) /\
  (0 < vdot n d -> exists eps, 0 < eps /\ forall t, 0 < t < eps -> ~ P (ray_at (Ray x d) t)).

(** The surfaces of a tree, each with [true] if an even number of differences subtract it *)
Fixpoint signed (s : shape) (even : bool) : list (surf * bool) :=
  match s with
  | Leaf f _ => [(f, even)]
  | Node _ DIFFERENCE _ l r => signed l even ++ signed r (negb even)
  | Node _ _ _ l r => signed l even ++ signed r even
  end.
(** Every normal points out of the whole solid (C17 says of which trees this is true) *)
Definition signs_right (s : shape) : Prop := forall f even, In (f, even) (signed s true) -> s_nscale f = if even then 1 else -1.

(** A component made of one material *)
Definition made_of (s : shape) (m : material) : Prop := forall f, In f (surface_ids s) -> s_mat f = m.
Definition of_glass (s : shape) (index_at : R -> xr) : Prop := sheet s = false /\ made_of s (Refractor index_at).
(** The index of what is at [x], for the wavelength [wl]: that of the glass, or of the world *)
Definition medium (comps : list shape) (wl : R) (x : v4) (n : R) : Prop :=
  (exists s index_at, In s comps /\ of_glass s index_at /\ inside s x /\ index_at wl = Fin n) \/
  ((forall s index_at, In s comps -> of_glass s index_at -> ~ inside s x) /\ n = world_index).
(** Benches: every component is of one material, glass is a solid without planes and with right normals,
    and no two pieces of glass share a point *)
Definition bench (comps : list shape) : Prop :=
  (forall s, In s comps -> exists m, made_of s m /\ forall index_at, m = Refractor index_at ->
     (forall f, In f (surface_ids s) -> is_plane (s_prim f) = false) /\ signs_right s) /\
  (forall s s' g g' x, In s comps -> In s' comps -> of_glass s g -> of_glass s' g' -> inside s x -> inside s' x -> s = s').
(** The ray starts in a medium of the index [n] *)
Definition starts_in (comps : list shape) (wl : R) (r : ray) (n : R) : Prop :=
  exists eps, 0 < eps /\ forall t, 0 < t < eps -> medium comps wl (ray_at r t) n.

(** Around [x] no surface but the one with the id [sid] *)
Definition alone (surfaces : list surf) (sid : Z) (x : v4) : Prop :=
  exists eps, 0 < eps /\ forall f, In f surfaces -> s_id f <> sid ->
  (forall y, vw y = 1 -> vnorm (vsub y x) < eps -> placed f y) \/ (forall y, vw y = 1 -> vnorm (vsub y x) < eps -> ~ placed f y).
(** Row [w'] goes on from [w]: off edges, not in the plane of the surface, no other surface there, and
    nothing entered or left in the stretch that the tracer skips at the start of a row *)
Definition plain (comps : list shape) (w w' : row) : Prop :=
  let x := here (row_end w) in let surfaces := flat_map surface_ids comps in
  alone surfaces (row_surf w) x /\
  (forall f, In f surfaces -> s_id f = row_surf w -> is_plane (s_prim f) = false ->
     smooth_at (s_prim f) (mapply (s_obj f) x) /\ off_edges (s_prim f) (mapply (s_obj f) x)) /\
  (forall f n, In f surfaces -> s_id f = row_surf w -> world_normal f x = Some n -> vdot (row_tilt w) n <> 0) /\
  exists eps, 0 < eps /\ forall s, In s comps -> undisturbed s (Ray x (row_tilt w')) (ray_offset_value + eps).
(** The leg of a row *)
Definition way (w : row) : ray := Ray (here (row_start w)) (row_tilt w).
(** C95 applies to the ray ... *)
Definition seen (comps : list shape) (r : ray) : Prop := (forall s, In s comps -> visible r s) /\ forall q, separate comps r q.
(** ... and to the leg of a row *)
Definition in_sight (comps : list shape) (w : row) : Prop := seen comps (way w).
(** The row runs in a medium of its index, but for finitely many points *)
Definition index_true (comps : list shape) (w : row) : Prop :=
  exists len, 0 < len /\ row_end w = vadd (row_start w) (vscale len (row_tilt w)) /\
  mostly (fun t => medium comps (row_wl w) (ray_at (way w) t) (row_idx w)) 0 len.
