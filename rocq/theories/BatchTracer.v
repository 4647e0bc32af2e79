(** * BatchTracer: RayTracer on RaySet arrays

    Tracer.v follows the list of rays.  This file follows the arrays of _pyrayt.py:356-456:
    the 13 x n RaySet, the masks, the writes through masks, and the frame of numbers.
    Between two states the array is finite ([arr R]); inside [_st_interact] its elements are
    floats ([arr xr]).  The model stops when a ray that is kept contains inf or nan. *)
From Coq Require Import Reals List Bool ZArith Arith.
Import ListNotations.
From Verif Require Import XR Arr Lin Ops Prim Csg Surf World Tracer Batch BatchOps RaySet.
Open Scope R_scope.

(** ** Views of a RaySet array *)
(** [rs.rays[k]], a 4 x n array *)
Definition part (k : nat) (rs : arr xr) : arr xr :=
  Arr (width rs) (map (view_item NaN rs k) (seq 0 4)).
(** [rs.rays[k] = u] for a 4 x n array *)
Definition set_part (k : nat) (u rs : arr xr) : arr xr :=
  fold_left (fun rs axis => set_ray_row k axis (row NaN u axis) rs) (seq 0 4) rs.
(** [rs.rays[k, ..., mask]]: a 1-D index and a mask separated by an ellipsis, so the result has
    one row for each ray of the mask and four columns *)
Definition part_masked (k : nat) (mask : nat -> bool) (rs : arr xr) : nat -> nat -> xr :=
  fun i axis => view_item NaN rs k axis (nth i (picked (width rs) mask) 0%nat).
(** [rs.rays[k, ..., mask] = u] *)
Definition set_part_masked (k : nat) (mask : nat -> bool) (u : nat -> nat -> xr) (rs : arr xr) : arr xr :=
  fold_left (fun rs axis => set_ray_row k axis (fun j => if mask j then u (length (picked j mask)) axis
                                                         else view_item NaN rs k axis j) rs)
            (seq 0 4) rs.
(** [rs.wavelength], [rs.index]: rows 2 and 3 of the metadata *)
Definition meta (f : field) (rs : arr xr) : nat -> xr := row NaN (metadata rs) (meta_row f).

(** ** Materials *)
(** The [trace] methods of materials.py:47-50, 58-62 and 70-75.  [None]: the material has no
    such method (AttributeError). *)
Definition batch_material (s : surf) (rs : arr xr) : option (arr xr) :=
  match s_mat s with
  | Absorber => Some (set_part 1 (const_cols (width rs) [0; 0; 0; 0]) rs)
  | Mirror =>
      let normals := batch_world_normals s (part 0 rs) in
      Some (set_part 1 (batch_reflect (part 1 rs) normals) rs)
  | Refractor index_at =>
      let normals := batch_world_normals s (part 0 rs) in
      let n2 := fun j => match meta Wavelength rs j with Fin w => index_at w | _ => NaN end in
      let '(d, n) := batch_refract (part 1 rs) normals (meta Index rs) n2 world_index in
      Some (set_metadata_row (meta_row Index) n (set_part 1 d rs))
  | Untraceable => None
  end.

(** ** _st_interact *)
Section Interact.
  Variable hit_distances : nat -> xr.
  Variable hit_surfaces : nat -> Z.

  (** _pyrayt.py:401-411, the body of the loop over the table of surfaces *)
  Definition batch_entry (next : arr xr) (e : Z * surf) : option (arr xr) :=
    let '(surface_id, s) := e in
    let surface_mask := fun j => Z.eqb (hit_surfaces j) surface_id in
    if existsb surface_mask (seq 0 (width next)) then
      let distances := select (width next) surface_mask hit_distances in
      let step := part_masked 1 surface_mask next in
      let from := part_masked 0 surface_mask next in
      let next := set_part_masked 0 surface_mask
                    (fun i axis => xadd (from i axis) (xmul (step i axis) (distances i))) next in
      match batch_material s (mask_cols surface_mask next) with
      | None => None
      | Some traced => Some (put surface_mask traced next)
      end
    else Some next.
  Fixpoint batch_entries (lut : list (Z * surf)) (next : arr xr) : option (arr xr) :=
    match lut with
    | [] => Some next
    | e :: r => match batch_entry next e with None => None | Some next => batch_entries r next end
    end.

  (** _pyrayt.py:416-421: [dead_rays].  The third argument of np.logical_or is its output. *)
  Definition batch_dead (rs : arr R) : nat -> bool :=
    let norms := norm0 (part 1 (amap Fin rs)) in
    fun j => logical_or_out (xisclose (norms j) 0) (Z.eqb (hit_surfaces j) (-1))
                            (rltb (get rs Intensity j) ray_intensity_threshold).

  (** _pyrayt.py:168-186 [insert]: the new rows of the frame, each with the numbers of the
      columns [df_columns]: generation, intensity, wavelength, index, id, surface, x0, y0, z0,
      x1, y1, z1, x_tilt, y_tilt, z_tilt *)
  Definition batch_insert (rs next : arr xr) (surfaces : nat -> Z) : list (list xr) :=
    let trimmed_starts := top_rows 3 (part 0 rs) in
    let tilts := top_rows 3 (part 1 rs) in
    let trimmed_ends := top_rows 3 (part 0 next) in
    let tilts := normalize0 tilts in
    let ids := Arr (width rs) [fun j => Fin (IZR (surfaces j))] in
    let table := vstack (metadata rs) (vstack ids (vstack trimmed_starts (vstack trimmed_ends tilts))) in
    map (column table) (seq 0 (width table)).

  (** the array as finite numbers; [None] if there is an inf or nan in it *)
  Definition finite_values (rs : arr xr) : bool :=
    forallb (fun j => forallb xfinite (column rs j)) (seq 0 (width rs)).
  Definition to_real (rs : arr xr) : arr R := amap (fun x => match x with Fin r => r | _ => 0 end) rs.

  Inductive binteraction : Type :=
  | BAllDead
  | BNext (rows : list (list xr)) (rays : arr R) (gen : nat) (finished : bool)
  | BRaise
  | BNonFinite.

  (** _pyrayt.py:394-452 [_st_interact] *)
  Definition batch_interact (lut : list (Z * surf)) (limit : Z) (gen : nat) (rs : arr R) : binteraction :=
    let next := amap Fin rs in
    let missed := fun j => Z.eqb (hit_surfaces j) (-1) in
    let next := set_part_masked 1 missed (fun _ _ => Fin 0) next in
    match batch_entries lut next with
    | None => BRaise
    | Some next =>
        let dead_rays := batch_dead rs in
        let living_rays := fun j => negb (dead_rays j) in
        if forallb dead_rays (seq 0 (width rs)) then BAllDead else
        let next := mask_cols living_rays next in
        let rows := batch_insert (mask_cols living_rays (amap Fin rs)) next
                                 (select (width rs) living_rays hit_surfaces) in
        let gen := S gen in
        let next := set_metadata_row (meta_row Generation) (fun _ => Fin (INR gen)) next in
        if negb (finite_values next && forallb (forallb xfinite) rows) then BNonFinite else
        if Z.eqb (Z.of_nat gen) limit then BNext rows (to_real next) gen true
        else
          let moved := amap2 xadd (part 0 next) (amap (fun x => xmul (Fin ray_offset_value) x) (part 1 next)) in
          BNext rows (to_real (set_part 0 moved next)) gen false
    end.
End Interact.

(** ** RayTracer *)
(** _pyrayt.py:223-258: the attributes *)
Record btracer : Type := BTracer {
  b_frame : list (list xr);
  b_state : state;
  b_gen : nat;
  b_complete : bool;
  b_sources : list loc;
  b_comps : list loc;
  b_n : nat;
  b_limit : Z;
  b_rays : arr R;
  b_hits : (nat -> xr) * (nat -> Z);
  b_lut : list (Z * loc)
}.
Definition b_with (f : list (list xr)) (s : state) (g : nat) (c : bool) (r : arr R)
    (hs : (nat -> xr) * (nat -> Z)) (b : btracer) : btracer :=
  BTracer f s g c (b_sources b) (b_comps b) (b_n b) (b_limit b) r hs (b_lut b).

(** _pyrayt.py:211-260 [RayTracer(...)] *)
Definition new_btracer (h : heap) (sources comps : list loc) (n : nat) (limit : Z) : option btracer :=
  match collect (map (lut_of h) comps) with
  | None => None
  | Some luts => Some (BTracer [] IDLE 0 false sources comps n limit (Arr 0 []) ((fun _ => PInf), (fun _ => (-1)%Z))
                               (concat luts))
  end.

Inductive bres : Type :=
| BOk (b : btracer)
| BErr (e : exn)
| BNan      (* a kept ray is not finite: the model does not follow it *)
| BFuel.    (* still running *)
Definition bbind (r : bres) (k : btracer -> bres) : bres := match r with BOk b => k b | _ => r end.

Section Trace.
  Variable asort : list xr -> list nat.
  Variable h : heap.
  Variable generate_rays : loc -> nat -> arr R.

  (** the rays of the array, as _st_propagate passes them to [intersect] *)
  Definition rays_of (rs : arr R) : rayset := fun j =>
    Ray (V4 (ray_item rs 0 0 j) (ray_item rs 0 1 j) (ray_item rs 0 2 j) (ray_item rs 0 3 j))
        (V4 (ray_item rs 1 0 j) (ray_item rs 1 1 j) (ray_item rs 1 2 j) (ray_item rs 1 3 j)).

  (** _pyrayt.py:356-368 [_st_initialize], with [reset] (262-271) *)
  Definition b_initialize (b : btracer) : bres :=
    match join_sets (map (fun s => generate_rays s (b_n b)) (b_sources b)) with
    | None => BErr ValueError
    | Some rs => BOk (b_with [] PROPAGATE 0 false rs (b_hits b) b)
    end.

  (** _pyrayt.py:370-392 [_st_propagate] *)
  Definition b_propagate (b : btracer) : bres :=
    match collect (map (shape_of h) (b_comps b)) with
    | None => BErr AttributeError
    | Some comps =>
        let rs := b_rays b in
        BOk (b_with (b_frame b) INTERACT (b_gen b) (b_complete b) rs
                    (batch_propagate asort comps (width rs) (rays_of rs)) b)
    end.

  (** _pyrayt.py:394-452 [_st_interact] *)
  Definition b_interact (b : btracer) : bres :=
    match collect (map (entry_of h) (b_lut b)) with
    | None => BErr AttributeError
    | Some lut =>
        match batch_interact (fst (b_hits b)) (snd (b_hits b)) lut (b_limit b) (b_gen b) (b_rays b) with
        | BRaise => BErr AttributeError
        | BNonFinite => BNan
        | BAllDead => BOk (b_with (b_frame b) FINISH (b_gen b) (b_complete b) (b_rays b) (b_hits b) b)
        | BNext rows rays gen finished =>
            BOk (b_with (b_frame b ++ rows) (if finished then FINISH else PROPAGATE) gen (b_complete b)
                        rays (b_hits b) b)
        end
    end.

  (** _pyrayt.py:454-456 [_st_finish] *)
  Definition b_finish (b : btracer) : bres :=
    BOk (b_with (b_frame b) IDLE (b_gen b) true (b_rays b) (b_hits b) b).

  (** _pyrayt.py:329-339 [trace] *)
  Fixpoint b_run (fuel : nat) (b : btracer) : bres :=
    match b_state b with
    | IDLE => BOk b
    | s =>
        match fuel with
        | O => BFuel
        | S n =>
            bbind (match s with
                   | INITIALIZE => b_initialize b
                   | PROPAGATE => b_propagate b
                   | INTERACT => b_interact b
                   | _ => b_finish b
                   end) (b_run n)
        end
    end.
  Definition b_trace (fuel : nat) (b : btracer) : bres :=
    b_run fuel (b_with (b_frame b) INITIALIZE (b_gen b) (b_complete b) (b_rays b) (b_hits b) b).
End Trace.
