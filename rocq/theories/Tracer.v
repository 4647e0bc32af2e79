(** * Tracer: model of /repo/pyrayt/_pyrayt.py (RaySet, the result frame, RayTracer)
    and of the [trace] methods of /repo/pyrayt/materials.py.

    A RaySet is the list of its columns.  Components, surfaces and sources are
    references into the heap of World.v, read when [trace] runs.
    SIMPLIFICATION: the generation and id rows hold integers, so they are naturals. *)
From Coq Require Import Reals List Bool ZArith.
Import ListNotations.
From Verif Require Import XR Arr Lin Ops Prim Csg Surf World.
Open Scope R_scope.

(** ** RaySet *)
(** _pyrayt.py:13-144 [RaySet]: one column.  Rows 0-7 are the ray, then the fields
    generation, intensity, wavelength, index, id (line 15). *)
Record col : Type := Col {
  c_ray : ray;
  c_gen : nat;
  c_int : R;
  c_wl : R;
  c_idx : R;
  c_id : nat
}.

Definition zero4 : v4 := V4 0 0 0 0.
Definition with_ray (r : ray) (c : col) : col := Col r (c_gen c) (c_int c) (c_wl c) (c_idx c) (c_id c).
Definition with_gen (g : nat) (c : col) : col := Col (c_ray c) g (c_int c) (c_wl c) (c_idx c) (c_id c).
Definition with_idx (n : R) (c : col) : col := Col (c_ray c) (c_gen c) (c_int c) (c_wl c) n (c_id c).
Definition with_id (i : nat) (c : col) : col := Col (c_ray c) (c_gen c) (c_int c) (c_wl c) (c_idx c) i.
Definition with_direction (d : v4) (c : col) : col := with_ray (Ray (origin (c_ray c)) d) c.

(** [rays[0] += rays[1] * t] for one column (lines 405-408 and 449) *)
Definition forward (t : R) (c : col) : col :=
  with_ray (Ray (vadd (origin (c_ray c)) (vscale t (direction (c_ray c)))) (direction (c_ray c))) c.

(** ** The nearest hit *)
(** _pyrayt.py:380 [np.where(shape_hits > 0, shape_hits, np.inf)] *)
Definition positive_or_inf (x : xr) : xr := if xltb (Fin 0) x then x else PInf.

(** _pyrayt.py:381 [np.argmin]: the first position of the least element (there is no
    nan in the array).  [argmin_from best b i xs] looks at [xs], whose first element has
    position [i], having seen the least value [best] at [b]. *)
Fixpoint argmin_from (best : xr) (b i : nat) (xs : list xr) : nat :=
  match xs with
  | [] => b
  | x :: r => if xltb x best then argmin_from x i (S i) r else argmin_from best b (S i) r
  end.
Definition argmin (xs : list xr) : nat :=
  match xs with [] => O | x :: r => argmin_from x 0 1 r end.

Section Sorting.
  Variable asort : list xr -> list nat. (* np.argsort *)

  (** _pyrayt.py:377-386, the body of the loop over components for one column *)
  Definition propagate_shape (r : ray) (best : xr * Z) (shape : shape) : xr * Z :=
    let '(hits, surfaces) := shape_intersect asort shape r in
    let hits := map positive_or_inf hits in
    let k := argmin hits in
    let nearest_hit := nth k hits PInf in
    let nearest_surface := nth k surfaces (-1)%Z in
    if xltb nearest_hit (fst best) then (nearest_hit, nearest_surface) else best.

  (** _pyrayt.py:370-392 [_st_propagate] on one column: hit distance and surface id *)
  Definition propagate (comps : list shape) (c : col) : xr * Z :=
    fold_left (propagate_shape (c_ray c)) comps (PInf, (-1)%Z).
End Sorting.

(** ** Materials *)
Definition world_index : R := 1. (* operations.py:110, the default of n_global *)

(** The [trace] methods on one column; [None] stands for a column with nan in it.
    materials.py:47-50 absorber, 59-62 mirror, 70-75 Glass. [Untraceable] has no such
    method, see [lut_entry]. *)
Definition material_trace (s : surf) (c : col) : option col :=
  match s_mat s with
  | Absorber => Some (with_direction zero4 c)
  | Mirror =>
      match world_normal s (origin (c_ray c)) with
      | None => None
      | Some n => Some (with_direction (reflect (direction (c_ray c)) n) c)
      end
  | Refractor index_at =>
      match world_normal s (origin (c_ray c)), index_at (c_wl c) with
      | Some n, Fin n2 =>
          match refract (direction (c_ray c)) n (c_idx c) n2 world_index with
          | Some (d, m) => Some (with_idx m (with_direction d c))
          | None => None
          end
      | _, _ => None
      end
  | Untraceable => None
  end.

(** ** Interaction *)
(** A column during _st_interact: its hit, and its current content ([None]: nan). *)
Definition cell : Type := ((xr * Z) * option col)%type.
Definition hit_of (x : cell) : xr * Z := fst x.

(** _pyrayt.py:396-399: the copy of the ray set, rays without a hit stopped *)
Definition start_cell (h : xr * Z) (c : col) : cell :=
  (h, Some (if Z.eqb (snd h) (-1) then with_direction zero4 c else c)).

(** _pyrayt.py:404-411 for one masked column: advance, then let the material act *)
Definition apply_surface (s : surf) (x : cell) : cell :=
  let '(h, oc) := x in
  (h, match oc, fst h with
      | Some c, Fin t => material_trace s (forward t c)
      | _, _ => None
      end).

(** _pyrayt.py:401-411: one entry (id, surface) of the table; the outer [None] is the
    AttributeError of a hit material without a trace method *)
Definition lut_entry (e : Z * surf) (cells : list cell) : option (list cell) :=
  let '(id, s) := e in
  let mask := fun x : cell => Z.eqb (snd (hit_of x)) id in
  if existsb mask cells then
    match s_mat s with
    | Untraceable => None
    | _ => Some (map (fun x => if mask x then apply_surface s x else x) cells)
    end
  else Some cells.
Fixpoint lut_pass (lut : list (Z * surf)) (cells : list cell) : option (list cell) :=
  match lut with
  | [] => Some cells
  | e :: r => match lut_entry e cells with None => None | Some cells' => lut_pass r cells' end
  end.

(** _pyrayt.py:416-420: [absorbed_rays], the unused [powerless_rays] (line 417) and
    [dead_rays].  The third positional argument of np.logical_or is [out]: the array of
    powerless rays is overwritten by the or of the other two. *)
Definition ray_intensity_threshold : R := 1 / 10. (* line 197 *)
Definition absorbed (c : col) : bool := isclose (vnorm (direction (c_ray c))) 0.
Definition powerless (c : col) : bool := rltb (c_int c) ray_intensity_threshold.
Definition logical_or_out (a b out : bool) : bool := orb a b.
Definition dead (c : col) (h : xr * Z) : bool :=
  logical_or_out (absorbed c) (Z.eqb (snd h) (-1)) (powerless c).

(** ** The result frame *)
(** _pyrayt.py:147-166: one row.  SIMPLIFICATION: start, end and tilt keep a fourth
    coordinate 0 (the code drops it); the float32 dtype of the empty frame is ignored. *)
Record row : Type := Row {
  row_gen : nat;
  row_int : R;
  row_wl : R;
  row_idx : R;
  row_id : nat;
  row_surf : Z;
  row_start : v4;
  row_end : v4;
  row_tilt : v4
}.

(** _pyrayt.py:168-186 [insert] for one column; [None] stands for a nan in the row *)
Definition trim (v : v4) : v4 := vset_w v 0.
Definition make_row (c next : col) (surface : Z) : option row :=
  match vnormalize (trim (direction (c_ray c))) with
  | None => None
  | Some tilt =>
      Some (Row (c_gen c) (c_int c) (c_wl c) (c_idx c) (c_id c) surface
                (trim (origin (c_ray c))) (trim (origin (c_ray next))) tilt)
  end.

(** The frame: rows, and the column source_id once it has been added (line 354) *)
Record frame : Type := Frame { f_rows : list row; f_source_ids : option (list Z) }.
Definition empty_frame : frame := Frame [] None.

Fixpoint collect {A : Type} (l : list (option A)) : option (list A) :=
  match l with
  | [] => Some []
  | None :: _ => None
  | Some x :: r => match collect r with None => None | Some xs => Some (x :: xs) end
  end.

(** _pyrayt.py:193: ray_offset_value *)
Definition ray_offset_value : R := / 1000000.

(** _pyrayt.py:394-452 [_st_interact] as a function of the ray set, the hits, the
    generation number and the limit *)
Inductive interaction : Type :=
| IAllDead                                           (* line 426 *)
| INext (rows : list row) (rays : list col) (gen : nat) (finished : bool)
| IRaise                                             (* AttributeError *)
| INan.                                              (* a living ray became nan *)

Definition interact (lut : list (Z * surf)) (limit : Z) (gen : nat)
    (rays : list col) (hits : list (xr * Z)) : interaction :=
  match lut_pass lut (map (fun q : (xr * Z) * col => start_cell (fst q) (snd q)) (combine hits rays)) with
  | None => IRaise
  | Some cells =>
      let living := filter (fun q : col * cell => negb (dead (fst q) (hit_of (snd q))))
                           (combine rays cells) in
      match living with
      | [] => IAllDead
      | _ =>
          match collect (map (fun q : col * cell => snd (snd q)) living) with
          | None => INan
          | Some next =>
              match collect (map (fun q : (col * cell) * col =>
                                    make_row (fst (fst q)) (snd q) (snd (hit_of (snd (fst q)))))
                                 (combine living next)) with
              | None => INan
              | Some rows =>
                  let gen' := S gen in
                  let next := map (with_gen gen') next in
                  if Z.eqb (Z.of_nat gen') limit then INext rows next gen' true
                  else INext rows (map (forward ray_offset_value) next) gen' false
              end
          end
      end
  end.

(** ** RayTracer *)
(** _pyrayt.py:202-209; TRIM and RECORD are never entered *)
Inductive state : Type := IDLE | INITIALIZE | PROPAGATE | INTERACT | FINISH.

(** _pyrayt.py:223-258: the attributes.  A single source or component is a list of one. *)
Record tracer : Type := Tracer {
  t_frame : frame;
  t_state : state;
  t_gen : nat;
  t_complete : bool;
  t_sources : list loc;
  t_comps : list loc;
  t_n : nat;
  t_limit : Z;
  t_rays : list col;
  t_hits : list (xr * Z);
  t_lut : list (Z * loc)
}.

Definition set_frame (f : frame) (t : tracer) : tracer :=
  Tracer f (t_state t) (t_gen t) (t_complete t) (t_sources t) (t_comps t) (t_n t) (t_limit t)
         (t_rays t) (t_hits t) (t_lut t).
Definition set_state (s : state) (t : tracer) : tracer :=
  Tracer (t_frame t) s (t_gen t) (t_complete t) (t_sources t) (t_comps t) (t_n t) (t_limit t)
         (t_rays t) (t_hits t) (t_lut t).
Definition set_gen (g : nat) (t : tracer) : tracer :=
  Tracer (t_frame t) (t_state t) g (t_complete t) (t_sources t) (t_comps t) (t_n t) (t_limit t)
         (t_rays t) (t_hits t) (t_lut t).
Definition set_complete (b : bool) (t : tracer) : tracer :=
  Tracer (t_frame t) (t_state t) (t_gen t) b (t_sources t) (t_comps t) (t_n t) (t_limit t)
         (t_rays t) (t_hits t) (t_lut t).
Definition set_rays (r : list col) (t : tracer) : tracer :=
  Tracer (t_frame t) (t_state t) (t_gen t) (t_complete t) (t_sources t) (t_comps t) (t_n t) (t_limit t)
         r (t_hits t) (t_lut t).
Definition set_hits (hs : list (xr * Z)) (t : tracer) : tracer :=
  Tracer (t_frame t) (t_state t) (t_gen t) (t_complete t) (t_sources t) (t_comps t) (t_n t) (t_limit t)
         (t_rays t) hs (t_lut t).

(** csg.py:170-173 and world_objects.py:325-331 [surface_ids] of an object: pairs of
    id and surface; [None] for an object without that attribute *)
Fixpoint lut_fuel (fuel : nat) (h : heap) (l : loc) : option (list (Z * loc)) :=
  match fuel with
  | O => None
  | S n =>
      match get h l with
      | Some o =>
          match o_kind o with
          | KSurf _ _ => Some [(Z.of_nat (o_id o), l)]
          | KCsg _ lc rc =>
              match lut_fuel n h lc, lut_fuel n h rc with
              | Some a, Some b => Some (a ++ b)
              | _, _ => None
              end
          | _ => None
          end
      | None => None
      end
  end.
Definition lut_of (h : heap) (l : loc) : option (list (Z * loc)) := lut_fuel (depth h) h l.

(** _pyrayt.py:211-260 [RayTracer(sources, components, rays_per_source, generation_limit)];
    [None]: a component without surface_ids (AttributeError) *)
Definition new_tracer (h : heap) (sources comps : list loc) (n : nat) (limit : Z) : option tracer :=
  match collect (map (lut_of h) comps) with
  | None => None
  | Some luts => Some (Tracer empty_frame IDLE 0 false sources comps n limit [] [] (concat luts))
  end.

(** _pyrayt.py:262-271 [reset] *)
Definition reset (t : tracer) : tracer :=
  set_gen 0 (set_state IDLE (set_frame empty_frame (set_complete false t))).
(** _pyrayt.py:273-287 *)
Definition set_rays_per_source (n : nat) (t : tracer) : tracer :=
  Tracer (t_frame t) (t_state t) (t_gen t) (t_complete t) (t_sources t) (t_comps t) n (t_limit t)
         (t_rays t) (t_hits t) (t_lut t).
Definition get_rays_per_source (t : tracer) : nat := t_n t.
(** _pyrayt.py:289-303 *)
Definition set_generation_limit (limit : Z) (t : tracer) : tracer :=
  Tracer (t_frame t) (t_state t) (t_gen t) (t_complete t) (t_sources t) (t_comps t) (t_n t) limit
         (t_rays t) (t_hits t) (t_lut t).
Definition get_generation_limit (t : tracer) : Z := t_limit t.
(** _pyrayt.py:305-317 [load_components]: the table of surfaces is left as it is *)
Definition load_components (comps : list loc) (t : tracer) : tracer :=
  Tracer (t_frame t) (t_state t) (t_gen t) (t_complete t) (t_sources t) comps (t_n t) (t_limit t)
         (t_rays t) (t_hits t) (t_lut t).
(** _pyrayt.py:319-327 [get_system]: reads an attribute [_system] that nothing sets;
    [None] is the AttributeError *)
Definition get_system (t : tracer) : option (list loc) := None.
(** _pyrayt.py:341-347 [get_results] *)
Definition get_results (t : tracer) : frame := t_frame t.

(** [(x / n).astype(int)]: division, then truncation towards zero *)
Definition trunc (x : R) : Z := if Rle_dec 0 x then Int_part x else (- Int_part (- x))%Z.
(** _pyrayt.py:349-354 [calculate_source_ids] *)
Definition calculate_source_ids (t : tracer) : tracer :=
  let rows := f_rows (t_frame t) in
  set_frame (Frame rows (Some (map (fun w => trunc (INR (row_id w) / INR (t_n t))) rows))) t.

(** The outcome of a state function or of [trace] *)
Inductive tres : Type :=
| TOk (t : tracer)
| TRaise (e : exn) (t : tracer)
| TNan       (* a living ray became nan: the model does not follow it *)
| TFuel.     (* still running *)
Definition tbind (r : tres) (k : tracer -> tres) : tres :=
  match r with TOk t => k t | _ => r end.

(** [np.arange(n_rays)] written to the id row (line 364) *)
Fixpoint renumber (i : nat) (cs : list col) : list col :=
  match cs with [] => [] | c :: r => with_id i c :: renumber (S i) r end.

Section Trace.
  Variable asort : list xr -> list nat.
  (** The scene while [trace] runs, and the rays each source generates when asked. *)
  Variable h : heap.
  Variable generate_rays : loc -> nat -> list col.

  (** The surface object at [l] as a value *)
  Definition surf_of (l : loc) : option surf :=
    match shape_of h l with Some (Leaf s _) => Some s | _ => None end.
  Definition entry_of (e : Z * loc) : option (Z * surf) :=
    match surf_of (snd e) with Some s => Some (fst e, s) | None => None end.

  (** _pyrayt.py:356-368 [_st_initialize]; np.hstack of an empty list raises *)
  Definition st_initialize (t : tracer) : tres :=
    let t := reset t in
    match t_sources t with
    | [] => TRaise ValueError t
    | ss => TOk (set_state PROPAGATE
                  (set_rays (renumber 0 (concat (map (fun s => generate_rays s (t_n t)) ss))) t))
    end.

  (** _pyrayt.py:370-392 [_st_propagate] *)
  Definition st_propagate (t : tracer) : tres :=
    match collect (map (shape_of h) (t_comps t)) with
    | None => TRaise AttributeError t
    | Some comps => TOk (set_state INTERACT (set_hits (map (propagate asort comps) (t_rays t)) t))
    end.

  (** _pyrayt.py:394-452 [_st_interact].  The table holds surfaces (see [lut_fuel]), so
      looking one up never fails. *)
  Definition st_interact (t : tracer) : tres :=
    match collect (map entry_of (t_lut t)) with
    | None => TRaise AttributeError t
    | Some lut =>
        match interact lut (t_limit t) (t_gen t) (t_rays t) (t_hits t) with
        | IRaise => TRaise AttributeError t
        | INan => TNan
        | IAllDead => TOk (set_state FINISH t)
        | INext rows rays gen finished =>
            TOk (set_state (if finished then FINISH else PROPAGATE)
                  (set_gen gen (set_rays rays
                    (set_frame (Frame (f_rows (t_frame t) ++ rows) None) t))))
        end
    end.

  (** _pyrayt.py:454-456 [_st_finish] *)
  Definition st_finish (t : tracer) : tres := TOk (set_state IDLE (set_complete true t)).

  (** _pyrayt.py:329-339 [trace]; [fuel] bounds the number of state functions called *)
  Fixpoint run_states (fuel : nat) (t : tracer) : tres :=
    match t_state t with
    | IDLE => TOk t
    | s =>
        match fuel with
        | O => TFuel
        | S n =>
            tbind (match s with
                   | INITIALIZE => st_initialize t
                   | PROPAGATE => st_propagate t
                   | INTERACT => st_interact t
                   | _ => st_finish t
                   end) (run_states n)
        end
    end.
  Definition trace (fuel : nat) (t : tracer) : tres := run_states fuel (set_state INITIALIZE t).
End Trace.
