(** * Rounded: the tracer of /repo/pyrayt/_pyrayt.py with its arithmetic left open

    Tracer.v computes with exact reals.  Here every numerical step of a generation (the search for
    the nearest hit, moving the rays, the materials, the test for a stopped ray, normalising) is a
    [kernel]: any function whatever from the array of the numbers the code passes to that step, and
    the position of a ray in it, to that ray's new numbers.  Binary64 with rounding, overflow and nan
    is one choice of kernels, whatever order the sums in a matrix product are taken in.
    SIMPLIFICATION: the generation and id rows hold small integers, which are exact in binary64, so
    they are naturals.  The loop below calls _st_propagate and _st_interact in one turn; the state
    machine around them is in Tracer.v.  The scene does not change while [trace] runs. *)
From Coq Require Import List Bool ZArith.
Import ListNotations.

(** The value at each position of an array of [n] entries *)
Definition entries {A : Type} (n : nat) (f : nat -> A) : list A := map f (seq 0 n).

Record kernels : Type := Kernels {
  num : Type;                                 (* the numbers in the other rows of a RaySet *)
  point : Type;                               (* three numbers *)
  beam : Type;                                (* the eight numbers of a ray: rows 0-7 *)
  surface : Type;
  k_origin : beam -> point;                   (* rays[0, :-1] *)
  k_stop : beam -> beam;                      (* rays[1] = 0 *)
  (* _pyrayt.py:370-392: hit distance and surface of the ray at a position *)
  k_hit : list beam -> nat -> num * Z;
  (* lines 405-408: rays[0] += rays[1] * hit_distances, for the masked rays *)
  k_advance : list (num * beam) -> nat -> beam;
  (* line 409: surface.material.trace on rays, wavelengths and indices; [None]: it raises *)
  k_trace : surface -> list (beam * num * num) -> option (nat -> beam * num);
  (* line 416: np.isclose(np.linalg.norm(rays[1], axis=0), 0) *)
  k_absorbed : list beam -> nat -> bool;
  (* line 417: intensity < ray_intensity_threshold *)
  k_powerless : num -> bool;
  (* lines 174 and 178: the normalised directions *)
  k_tilt : list beam -> nat -> point;
  (* line 449: rays[0] += ray_offset_value * rays[1] *)
  k_offset : list beam -> nat -> beam
}.

Section Rounded.
  Variable K : kernels.

  (** _pyrayt.py:13-144 [RaySet]: one column *)
  Record ncol : Type := NCol { n_beam : beam K; n_gen : nat; n_int : num K; n_wl : num K; n_idx : num K; n_id : nat }.
  (** _pyrayt.py:147-166: one row of the frame *)
  Record nrow : Type := NRow {
    nr_gen : nat; nr_int : num K; nr_wl : num K; nr_idx : num K; nr_id : nat; nr_surf : Z;
    nr_start : point K; nr_end : point K; nr_tilt : point K }.

  Definition set_beam (b : beam K) (c : ncol) : ncol := NCol b (n_gen c) (n_int c) (n_wl c) (n_idx c) (n_id c).
  Definition set_index (x : num K) (c : ncol) : ncol := NCol (n_beam c) (n_gen c) (n_int c) (n_wl c) x (n_id c).
  Definition set_generation (g : nat) (c : ncol) : ncol := NCol (n_beam c) g (n_int c) (n_wl c) (n_idx c) (n_id c).
  Definition set_id (i : nat) (c : ncol) : ncol := NCol (n_beam c) (n_gen c) (n_int c) (n_wl c) (n_idx c) i.

  (** A ray with the distance and surface of its hit *)
  Definition ncell : Type := ((num K * Z) * ncol)%type.

  (** _pyrayt.py:370-392 [_st_propagate] *)
  Definition n_hits (rays : list ncol) : list (num K * Z) :=
    entries (length rays) (k_hit K (map n_beam rays)).

  (** lines 396-399: the copy of the rays; a ray without a hit is stopped *)
  Definition n_copy (h : num K * Z) (c : ncol) : ncell :=
    (h, if Z.eqb (snd h) (-1) then set_beam (k_stop K (n_beam c)) c else c).

  (** [next_ray_set[..., mask] = values]: the [j]-th ray under the mask gets the [j]-th value *)
  Fixpoint n_write (mask : ncell -> bool) (f : nat -> beam K * num K) (j : nat) (cells : list ncell) : list ncell :=
    match cells with
    | [] => []
    | x :: r =>
        if mask x then (fst x, set_index (snd (f j)) (set_beam (fst (f j)) (snd x))) :: n_write mask f (S j) r
        else x :: n_write mask f j r
    end.

  (** lines 401-411: one surface of the table *)
  Definition n_surface (e : Z * surface K) (cells : list ncell) : option (list ncell) :=
    let mask := fun x : ncell => Z.eqb (snd (fst x)) (fst e) in
    if existsb mask cells then
      let masked := filter mask cells in
      let moved := entries (length masked) (k_advance K (map (fun x : ncell => (fst (fst x), n_beam (snd x))) masked)) in
      match k_trace K (snd e) (map (fun q : beam K * ncell => (fst q, n_wl (snd (snd q)), n_idx (snd (snd q)))) (combine moved masked)) with
      | None => None
      | Some f => Some (n_write mask f 0 cells)
      end
    else Some cells.
  Fixpoint n_surfaces (table : list (Z * surface K)) (cells : list ncell) : option (list ncell) :=
    match table with
    | [] => Some cells
    | e :: r => match n_surface e cells with None => None | Some cells' => n_surfaces r cells' end
    end.

  (** lines 416-421: for every ray, whether it lives on.  The third argument of np.logical_or is its
      [out] array, so the intensities play no part. *)
  Definition n_dead (rays : list ncol) (cells : list ncell) : list bool :=
    map (fun q : bool * (ncol * ncell) => orb (fst q) (Z.eqb (snd (fst (snd (snd q)))) (-1)))
        (combine (entries (length rays) (k_absorbed K (map n_beam rays))) (combine rays cells)).

  (** [array[..., mask]] *)
  Fixpoint select {A : Type} (mask : list bool) (xs : list A) : list A :=
    match mask, xs with
    | b :: m, x :: r => if b then x :: select m r else select m r
    | _, _ => []
    end.

  (** lines 168-186 [insert] *)
  Definition n_row (q : (point K * ncol) * ncell) : nrow :=
    let '((tilt, c), (h, c')) := q in
    NRow (n_gen c) (n_int c) (n_wl c) (n_idx c) (n_id c) (snd h) (k_origin K (n_beam c)) (k_origin K (n_beam c')) tilt.
  Definition n_insert (rays : list ncol) (cells : list ncell) : list nrow :=
    map n_row (combine (combine (entries (length rays) (k_tilt K (map n_beam rays))) rays) cells).

  (** line 449 *)
  Definition n_offset (rays : list ncol) : list ncol :=
    map (fun q : beam K * ncol => set_beam (fst q) (snd q)) (combine (entries (length rays) (k_offset K (map n_beam rays))) rays).

  Inductive outcome : Type :=
  | Finished (rows : list nrow)
  | Raised                        (* a material raised *)
  | Running.

  (** lines 370-452, until the state FINISH *)
  Fixpoint n_loop (fuel : nat) (table : list (Z * surface K)) (limit : Z) (gen : nat) (rays : list ncol) (rows : list nrow) : outcome :=
    match fuel with
    | O => Running
    | S fuel =>
        let hits := n_hits rays in
        match n_surfaces table (map (fun q : (num K * Z) * ncol => n_copy (fst q) (snd q)) (combine hits rays)) with
        | None => Raised
        | Some cells =>
            let dead := n_dead rays cells in
            if forallb (fun b => b) dead then Finished rows
            else
              let next := select (map negb dead) cells in
              let rows := rows ++ n_insert (select (map negb dead) rays) next in
              let gen := S gen in
              let rays := map (set_generation gen) (map snd next) in
              if Z.eqb (Z.of_nat gen) limit then Finished rows
              else n_loop fuel table limit gen (n_offset rays) rows
        end
    end.

  (** lines 356-368 [_st_initialize]: the rays of the sources one after the other, with new ids *)
  Definition n_number (rays : list ncol) : list ncol :=
    map (fun q : nat * ncol => set_id (fst q) (snd q)) (combine (seq 0 (length rays)) rays).
  (** lines 329-339 [trace] *)
  Definition n_trace (fuel : nat) (table : list (Z * surface K)) (limit : Z) (rays : list ncol) : outcome :=
    n_loop fuel table limit 0 (n_number rays) [].
End Rounded.
